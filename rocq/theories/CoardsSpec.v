(** * What reading numbers from NetCDF files is to do *)
From Coq Require Import String Ascii ZArith List Bool Arith.
From Verif Require Import StringModel StringSpec CoardsModel.
Import ListNotations.

(** The first entry with a name *)
Definition has {A} (l : list (text * A)) (name : text) (a : A) : Prop :=
  exists before after, l = before ++ (name, a) :: after /\ ~ In name (map fst before).
Definition lacks {A} (l : list (text * A)) (name : text) : Prop := ~ In name (map fst l).

Definition white (c : ascii) : Prop := In c (map ascii_of_nat [9; 10; 11; 12; 13; 32]).
Definition comma : ascii := ","%char.
(** A text lists a word, between commas, with or without white space around it, if there are commas, and
    between white space otherwise *)
Definition listed (t word : text) : Prop :=
  exists ws w a b, separated (fun c => (In comma t /\ c = comma) \/ (~ In comma t /\ white c)) t ws /\
    In w ws /\ w = a ++ word ++ b /\ all white a /\ all white b.
(** A dataset says that it conforms to the convention *)
Definition conforming {D} (d : @dataset D) : Prop :=
  exists t, has (attributes d) (lit "Conventions") (Characters t) /\ listed t (lit "COARDS").
(** The conventions are a text that does not end in a zero character, or there are none *)
Definition well_formed {D} (d : @dataset D) : Prop :=
  forall a, has (attributes d) (lit "Conventions") a -> exists t, a = Characters t /\ forall r, t <> r ++ [zero].

(** The name in a path *)
Definition path_of (name : text) : text := lit "/" ++ name.
Definition a_name (name : text) : Prop := name <> [] /\ ~ In "/"%char name.
(** The first name of a path *)
Definition first_name (path name : text) : Prop := exists ns, separated (fun c => c = "/"%char) path (name :: ns).
Definition single_name (path name : text) : Prop := separated (fun c => c = "/"%char) path [name].

Section Problems.
Context {D : Type}.
Variables (file_exists : text -> bool) (nc_open : text -> option (@dataset D)).

(** What can be wrong with a file and a path in it, and what is told *)
Inductive problem (debug : bool) (database path : text) : text -> Prop :=
| no_file :
    file_exists database = false -> problem debug database path (lit "Does not exist")
| no_dataset :
    file_exists database = true -> nc_open database = None -> problem debug database path (lit "Cannot be read")
| not_conforming d :
    file_exists database = true -> nc_open database = Some d -> (debug = true -> well_formed d) -> ~ conforming d ->
    problem debug database path (lit "Does not conform to convention: COARDS")
| no_variable d name :
    file_exists database = true -> nc_open database = Some d -> (debug = true -> well_formed d) -> conforming d ->
    first_name path name -> (debug = true -> single_name path name) -> lacks (variables d) name ->
    problem debug database path (lit "Does not contain variable: " ++ name)
| no_scalar d name v :
    file_exists database = true -> nc_open database = Some d -> (debug = true -> well_formed d) -> conforming d ->
    first_name path name -> (debug = true -> single_name path name) -> has (variables d) name v -> dimensions v <> 0 ->
    problem debug database path (lit "Variable is not a scalar: " ++ name).
End Problems.

(** Types of numbers *)
Definition numeric (t : nc_type) : Prop :=
  match t with NC_CHAR | NC_STRING | NC_USER _ => False | _ => True end.
