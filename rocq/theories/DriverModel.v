(** * Drivers, and reading and writing data from scripts

    Models [language/io/drivers.cc], [language/io/fern/{fern_driver,utils}.cc], the parts of
    [language/io/gdal/{gdal_driver,gdal_dataset}.cc] that open datasets, and
    [language/operation/std/{read,write}.cc].

    Trusted is what HDF5 and GDAL do: [H5Fcreate] with [H5F_ACC_TRUNC] makes an empty file of what
    was there.  What drivers of GDAL can open, and how they read and write rasters, is left open.
    Simplifications: drivers are registered by their own names (gdal_client.cc:80-94,
    fern_client.cc:43-48), and those of GDAL have a function that opens datasets; names are those of
    files (not of directories or connections), which are not opened twice at the same time, nor
    changed by others. *)
From Coq Require Import String ZArith List Bool SpecFloat Ascii.
From Verif Require Import IntsModel ArithModel FloatModel StringModel RasterModel StoreModel.
Import ListNotations.

(** open_mode.h *)
Inductive mode := Read | Update | Overwrite.
(** [Foreign]: the contents of any other file *)
Inductive content := Fern (t : tree) | Foreign (contents : nat).
Definition files := text -> option content.
Definition same_text (a b : text) : bool := if list_eq_dec ascii_dec a b then true else false.
Definition set_file (fs : files) (name : text) (c : option content) : files :=
  fun n => if same_text n name then c else fs n.

(** What is written: a number, or something else (a field, a string, ...) *)
Inductive attribute := Constant (n : num) | Something (what : nat).
Record dataset := Dataset { driver : text; dataset_name : text; open_mode : mode }.

Definition fern_name : text := lit "Fern".

Section Drivers.
Variables debug : bool.
(** What HDF5 makes of numbers of another type (see [StoreModel]) *)
Variables convert : vty -> num -> num.
(** The names of the drivers that are registered, in their order *)
Variables drivers : list text.
(** Permissions of files, and of the directories they are in *)
Variables may_read may_write may_create directory_is_writable : text -> bool.
(** Whether a driver of GDAL can open a file for reading, or for update, and whether it deletes it *)
Variables recognises updates deletes : text -> content -> bool.
(** Writing and reading datasets with a driver of GDAL *)
Variables write_raster : dataset -> files -> attribute -> path -> outcome files.
Variables read_raster : dataset -> files -> path -> outcome attribute.

(** data_name.cc:34-72.  Without assertions, a string that is not a data name has an empty database name
    and the path of the root. *)
Definition parse_name (name : text) : outcome (text * text) :=
  match data_name name with
  | Some parts => Done parts
  | None => if debug then Aborted else Done ([], slash)
  end.

(** drivers.cc:20-55.  [None]: no such driver *)
Definition drivers_to_try (format : text) : option (list text) :=
  match format with
  | [] =>
      Some ((if existsb (same_text fern_name) drivers then [fern_name] else []) ++
            filter (fun d => negb (same_text d fern_name)) drivers)
  | _ => if existsb (same_text format) drivers then Some [format] else None
  end.

(** utils.cc:18-101: [open_file]; [None] if an exception is thrown *)
Definition open_file (fs : files) (name : text) (m : mode) : option files :=
  match m with
  | Overwrite => if may_create name then Some (set_file fs name (Some (Fern []))) else None
  | Update =>
      match fs name with
      | Some (Fern _) => if may_read name && may_write name then Some fs else None
      | _ => None
      end
  | Read =>
      match fs name with
      | Some (Fern _) => if may_read name then Some fs else None
      | _ => None
      end
  end.

(** fern_driver.cc:28-101, gdal_driver.cc:53-102.  The Fern driver opens the file to find out
    whether it can be opened. *)
Definition can_open (fs : files) (d name : text) (m : mode) : files * bool :=
  if same_text d fern_name then
    match open_file fs name m with Some fs' => (fs', true) | None => (fs, false) end
  else
    let for_update := match fs name with Some c => updates d c | None => false end in
    (fs, match m with
         | Read => match fs name with Some c => recognises d c | None => false end
         | Update => for_update
         | Overwrite => for_update || directory_is_writable name
         end).

(** fern_driver.cc:104-110, fern_dataset.cc:28-38, gdal_driver.cc:113-119, gdal_dataset.cc:25-98 *)
Definition open (fs : files) (d name : text) (m : mode) : outcome (files * dataset) :=
  if same_text d fern_name then
    parts <~ parse_name name ;;
    match open_file fs (fst parts) m with
    | Some fs' => Done (fs', Dataset d name m)
    | None => Thrown
    end
  else
    match m with
    | Overwrite =>
        Done (match fs name with
              | Some c => if deletes d c then set_file fs name None else fs
              | None => fs
              end, Dataset d name m)
    | _ => if snd (can_open fs d name m) then Done (fs, Dataset d name m) else Thrown
    end.

Fixpoint open_first (fs : files) (ds : list text) (name : text) (m : mode) : outcome (files * dataset) :=
  match ds with
  | [] => Thrown
  | d :: ds =>
      let (fs', can) := can_open fs d name m in
      if can then open fs' d name m else open_first fs' ds name m
  end.
(** drivers.cc:58-85 *)
Definition open_dataset (fs : files) (name : text) (m : mode) (format : text) : outcome (files * dataset) :=
  assert debug (match drivers with [] => false | _ => true end)
  (match drivers_to_try format with
   | None => Thrown
   | Some ds => open_first fs ds name m
   end).

Fixpoint exists_first (fs : files) (ds : list text) (name : text) (m : mode) : files * bool :=
  match ds with
  | [] => (fs, false)
  | d :: ds =>
      let (fs', can) := can_open fs d name m in
      if can then (fs', true) else exists_first fs' ds name m
  end.
(** drivers.cc:88-103 *)
Definition dataset_exists (fs : files) (name : text) (m : mode) (format : text) : outcome (files * bool) :=
  assert debug (match drivers with [] => false | _ => true end)
  (match drivers_to_try format with
   | None => Thrown
   | Some ds => Done (exists_first fs ds name m)
   end).

(** The file of a dataset of the Fern format: fern_dataset.cc:36-37 *)
Definition database (name : text) : text := match data_name name with Some (d, _) => d | None => [] end.

Definition write_attribute (ds : dataset) (fs : files) (a : attribute) (p : path) : outcome files :=
  if same_text (driver ds) fern_name then
    match fs (database (dataset_name ds)) with
    | Some (Fern t) =>
        t' <~ StoreModel.write_attribute debug convert t (match a with Constant n => Some n | Something _ => None end) p ;;
        Done (set_file fs (database (dataset_name ds)) (Some (Fern t')))
    | _ => Undefined
    end
  else write_raster ds fs a p.
(** The result [None]: nothing, without an error *)
Definition read_data (ds : dataset) (fs : files) (p : path) : outcome (option attribute) :=
  if same_text (driver ds) fern_name then
    match fs (database (dataset_name ds)) with
    | Some (Fern t) =>
        r <~ StoreModel.read_data debug t p ;;
        Done (match r with Some n => Some (Constant n) | None => None end)
    | _ => Undefined
    end
  else r <~ read_raster ds fs p ;; Done (Some r).

(** write.cc:20-56: [write(data, name, format)] *)
Definition write (fs : files) (a : attribute) (name format : text) : outcome files :=
  parts <~ parse_name name ;;
  found <~ dataset_exists fs (fst parts) Update format ;;
  opened <~ open_dataset (fst found) (fst parts) (if snd found then Update else Overwrite) format ;;
  write_attribute (snd opened) (fst opened) a (names (snd parts)).
(** read.cc:21-60: [read(name)] *)
Definition read (fs : files) (name : text) : outcome (option attribute) :=
  parts <~ parse_name name ;;
  opened <~ open_dataset fs (fst parts) Read [] ;;
  read_data (snd opened) (fst opened) (names (snd parts)).
End Drivers.
