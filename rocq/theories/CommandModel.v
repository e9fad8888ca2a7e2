(** * Command lines of compiled modules

    Models [language/compiler/{parse_command_line.cc,module.cc}] and the constructors of
    [language/interpreter/{dataset_source,dataset_sync}.cc].

    Trusted is [boost::lexical_cast<int64_t>] (a sign or none, and digits; the number fits); that to
    [double] is left open.  Simplification: no two results go to the same file. *)
From Coq Require Import ZArith List Bool SpecFloat Ascii.
From Verif Require Import IntsModel ArithModel FloatModel StringModel RasterModel StoreModel DriverModel.
Import ListNotations.
Open Scope Z_scope.

(** [DataSource]: a dataset, or a constant of type [int64_t], [double] or [std::string] *)
Inductive source :=
| Stored (ds : dataset) (p : path)
| Integer (z : Z)
| Number (x : spec_float)
| Words (s : text).
(** [DataSync] *)
Record sync := Sync { sync_dataset : dataset; sync_path : path }.

(** string.cc:49-75 with [T = int64_t] *)
Definition digit (c : ascii) : option Z :=
  let n := Z.of_nat (nat_of_ascii c) in
  if (48 <=? n) && (n <=? 57) then Some (n - 48) else None.
Fixpoint digits (s : text) (z : Z) : option Z :=
  match s with
  | [] => Some z
  | c :: s => match digit c with Some d => digits s (10 * z + d) | None => None end
  end.
Definition unsigned_of (s : text) : option Z := match s with [] => None | _ => digits s 0 end.
Definition integer_of (s : text) : option Z :=
  match
    match s with
    | c :: r =>
        if ascii_dec c "-"%char then option_map Z.opp (unsigned_of r)
        else if ascii_dec c "+"%char then unsigned_of r
        else unsigned_of s
    | [] => None
    end
  with
  | Some z => if (imin S64 <=? z) && (z <=? imax S64) then Some z else None
  | None => None
  end.

Section Command.
Variables (debug : bool) (drivers : list text).
Variables (may_read may_write may_create directory_is_writable : text -> bool).
Variables (recognises updates deletes : text -> content -> bool).
(** string.cc:49-75 with [T = double] *)
Variables double_of : text -> option spec_float.
(** gdal_dataset.cc:285-306: [expression_type] of a dataset of GDAL *)
Variables raster_type : dataset -> files -> path -> outcome unit.

(** fern_dataset.cc:318-408: that there is an expression type.  Which one it is does not matter here. *)
Definition expression_type (ds : dataset) (fs : files) (p : path) : outcome unit :=
  if same_text (driver ds) fern_name then
    match fs (database (dataset_name ds)) with
    | Some (Fern t) =>
        a <~ contains_attribute debug t p ;;
        if a then
          match find t p with Some (Scalar _) => Done tt | _ => if debug then Aborted else Done tt end
        else Thrown
    | _ => Undefined
    end
  else raster_type ds fs p.

(** dataset_source.cc:17-26 *)
Definition dataset_source (fs : files) (database data : text) : outcome source :=
  opened <~ open_dataset debug drivers may_read may_write may_create directory_is_writable recognises updates deletes
              fs database Read [] ;;
  type <~ expression_type (snd opened) fs (names data) ;;
  Done (Stored (snd opened) (names data)).

(** parse_command_line.cc:27-57 *)
Definition data_source (fs : files) (value : text) : outcome source :=
  parts <~ parse_name debug value ;;
  found <~ dataset_exists debug drivers may_read may_write may_create directory_is_writable recognises updates
             fs (fst parts) Read [] ;;
  result <~ (if snd found then s <~ dataset_source fs (fst parts) (snd parts) ;; Done (Some s) else Done None) ;;
  match integer_of value with
  | Some z => Done (Integer z)
  | None =>
      match double_of value with
      | Some x => Done (Number x)
      | None => Done (Words value)
      end
  end.

(** parse_command_line.cc:60-67, dataset_sync.cc:17-25 *)
Definition data_sync (fs : files) (value : text) : outcome (files * sync) :=
  parts <~ parse_name debug value ;;
  opened <~ open_dataset debug drivers may_read may_write may_create directory_is_writable recognises updates deletes
              fs (fst parts) Overwrite [] ;;
  Done (fst opened, Sync (snd opened) (names (snd parts))).

(** parse_command_line.cc:112-121; the arguments that remain are returned too *)
Fixpoint parse_sources (fs : files) (nr : nat) (values : list text) : outcome (list source * list text) :=
  match nr, values with
  | S nr, value :: values =>
      s <~ data_source fs value ;;
      rest <~ parse_sources fs nr values ;;
      Done (s :: fst rest, snd rest)
  | _, _ => Done ([], values)
  end.
(** parse_command_line.cc:123-132; the files are returned, also in case of an exception *)
Fixpoint parse_syncs (fs : files) (nr : nat) (values : list text) : files * outcome (list sync * list text) :=
  match nr, values with
  | S nr, value :: values =>
      match data_sync fs value with
      | Done (fs', s) =>
          let (fs'', rest) := parse_syncs fs' nr values in
          (fs'', rest <~ rest ;; Done (s :: fst rest, snd rest))
      | Thrown => (fs, Thrown)
      | Aborted => (fs, Aborted)
      | Undefined => (fs, Undefined)
      end
  | _, _ => (fs, Done ([], values))
  end.
(** parse_command_line.cc:92-140.  [values]: [argv] without the name of the program *)
Definition parse_command_line (fs : files) (values : list text) (nr_arguments nr_results : nat) :
    files * outcome (list source * list sync) :=
  match parse_sources fs nr_arguments values with
  | Done (sources, values) =>
      let (fs', result) := parse_syncs fs nr_results values in
      (fs', result <~ result ;;
            match snd result with
            | [] => Done (sources, fst result)
            | _ => Thrown
            end)
  | Thrown => (fs, Thrown)
  | Aborted => (fs, Aborted)
  | Undefined => (fs, Undefined)
  end.

(** module.cc:41-55, called at the start of compiled modules (compile_visitor.cc:237-243) *)
Definition check_sources_and_syncs (nr_arguments : nat) (sources : list source) (syncs : list sync) : outcome unit :=
  if Nat.ltb (length sources) nr_arguments then Thrown
  else if Nat.ltb nr_arguments (length sources) then Thrown
  else Done tt.
End Command.
