(** * Reading numbers from NetCDF files

    Models [io/netcdf/coards/detail/read.h], [io/netcdf/coards/dataset.cc],
    [io/netcdf/core/attribute.cc], [io/netcdf/core/variable.cc], [io/netcdf/core/detail/variable.h],
    [io/netcdf/core/dataset.cc] and [dataset_handle.cc].  A failed assertion, in a debug build, is
    [Aborts]; undefined behaviour is [Undefined].

    Simplifications: a dataset is its global attributes and variables, and the NetCDF library is what
    the functions below say.  Names have no zero characters.  Numbers of all types are taken for what
    they are as [double]; only scalars have a value. *)
From Coq Require Import String Ascii ZArith List Bool Arith.
From Verif Require Import StringModel.
From Verif Require MessageModel.
Import ListNotations.

Section Coards.
(** [double] *)
Context {D : Type}.

(** The types of NetCDF; [NC_LONG] is [NC_INT] *)
Inductive nc_type :=
| NC_CHAR | NC_UBYTE | NC_BYTE | NC_USHORT | NC_SHORT | NC_UINT | NC_INT | NC_UINT64 | NC_INT64 | NC_FLOAT | NC_DOUBLE | NC_STRING
| NC_USER (n : nat).

(** A global attribute: characters, or [n] values of another type *)
Inductive attribute := Characters (t : text) | Values (n : nat).
Record variable := MkVariable {
  variable_type : nc_type; dimensions : nat; value : D;
  (** the value that stands for no data, if any: the attribute [_FillValue] *)
  fill_value : option D
}.
Record dataset := Dataset { attributes : list (text * attribute); variables : list (text * variable) }.

Definition same_text (a b : text) : {a = b} + {a <> b} := list_eq_dec ascii_dec a b.
Definition lookup {A} (l : list (text * A)) (name : text) : option A :=
  match find (fun e => if same_text (fst e) name then true else false) l with Some e => Some (snd e) | None => None end.

(** [Failed]: an exception is thrown *)
Inductive res (A : Type) := Ok (a : A) | Failed (e : MessageModel.exception) | Aborts | Undefined.
Arguments Ok {A} _. Arguments Failed {A} _. Arguments Aborts {A}. Arguments Undefined {A}.
Definition bind {A B} (p : res A) (f : A -> res B) : res B :=
  match p with Ok a => f a | Failed e => Failed e | Aborts => Aborts | Undefined => Undefined end.
Notation "x <~ p ;; q" := (bind p (fun x => q)) (at level 61, p at next level, right associativity).

Variable debug : bool.
Definition check (b : bool) : res unit := if debug && negb b then Aborts else Ok tt.

Definition zero : ascii := "000"%char.
(** The last character of a text *)
Definition last_is (c : ascii) (t : text) : bool := match rev t with d :: _ => Ascii.eqb c d | [] => false end.

(** attribute.cc:19-40.  NetCDF: [nc_get_att_text] fails for other types and leaves the buffer, whose
    elements are zero, as it is *)
Definition attribute_text (a : attribute) : res text :=
  let buffer := match a with Characters t => t | Values n => repeat zero n end in
  _ <~ check (match a with Characters _ => true | Values _ => false end) ;;
  _ <~ check (negb (last_is zero buffer)) ;;
  Ok buffer.

(** attribute.cc:81-108 *)
Definition conventions (d : dataset) : res (list text) :=
  match lookup (attributes d) (lit "Conventions") with
  | None => Ok []
  | Some a =>
      value <~ attribute_text a ;;
      Ok (if contains value (lit ",") then map (fun w => strip w []) (split value (lit ",")) else split value [])
  end.

(** coards/dataset.cc:25-32 *)
Definition conforms_to_coards (d : dataset) : res bool :=
  l <~ conventions d ;; Ok (if in_dec same_text (lit "COARDS") l then true else false).

(** variable.cc:86-124: whether the type is in the map, and whether it is [VT_FLOAT64] *)
Definition value_type_id (t : nc_type) : res bool :=
  match t with
  | NC_USER _ => if debug then Aborts else Undefined
  | NC_DOUBLE => Ok true
  | _ => Ok false
  end.

(** detail/variable.h:26-33, 48-63, with NetCDF's [nc_get_var_double], which fails for texts *)
Definition read_variable (v : variable) (destination : D) : res D :=
  match variable_type v with
  | NC_CHAR | NC_STRING | NC_USER _ => if debug then Aborts else Ok destination
  | _ => Ok (value v)
  end.

(** What C89 models; IDs without arguments are texts *)
Definition io_error {A} (pathname : text) (id : MessageModel.message_id) (arguments : list text) : res A :=
  match MessageModel.bind (MessageModel.format_message debug id arguments) (MessageModel.io_error pathname) with
  | MessageModel.Ok e => Failed e
  | _ => Aborts
  end.

(** Whether a file exists; NetCDF: [nc_open] *)
Variables (file_exists : text -> bool) (nc_open : text -> option dataset).

(** read.h:63-98: what is done with the dataset that has been opened.  [path]: the path in the dataset of
    the data name *)
Definition read_opened (d : dataset) (pathname path : text) (destination : D) : res D :=
  c <~ conforms_to_coards d ;;
  if negb c then io_error pathname MessageModel.DOES_NOT_CONFORM_TO_CONVENTION [lit "COARDS"]
  else
    _ <~ check (Nat.eqb (length (names path)) 1) ;;
    match names path with
    | [] => Undefined
    | name :: _ =>
        match lookup (variables d) name with
        | None => io_error pathname MessageModel.DOES_NOT_CONTAIN_VARIABLE [name]
        | Some v =>
            if negb (Nat.eqb (dimensions v) 0) then io_error pathname MessageModel.VARIABLE_IS_NOT_A_SCALAR [name]
            else
              t <~ value_type_id (variable_type v) ;;
              _ <~ check t ;;
              read_variable v destination
        end
    end.

(** read.h:39-99, dataset.cc:22-35.  The value of the destination is returned; the second result is the
    number of datasets that are open: the handle closes what it has opened however it goes out of scope
    (dataset_handle.cc:32-35) *)
Definition read_coards (database path : text) (destination : D) (opened : nat) : res D * nat :=
  if negb (file_exists database) then (io_error database MessageModel.DOES_NOT_EXIST [], opened)
  else match nc_open database with
       | None => (io_error database MessageModel.CANNOT_BE_READ [], opened)
       | Some d => let opened := S opened in (read_opened d database path destination, pred opened)
       end.
End Coards.
Arguments Ok {A} _. Arguments Failed {A} _. Arguments Aborts {A}. Arguments Undefined {A}.
