(** * Clients of libraries

    Models the classes whose instances keep a library initialised: [language/io/fern/hdf5_client.cc],
    [language/io/fern/fern_client.cc], [language/io/gdal/gdal_client.cc], [io/gdal/gdal_client.cc] and
    [language/python/client.cc], the latter with what [AlgebraParser] needs of it
    ([language/script/algebra_parser.cc]).  [IOClient] (language/io/io_client.cc:15-27) is one of each of
    the first three; its parts are made and destructed in order, which is a history of them.

    The instances of a class are alike; a history tells how many are made and destructed.  A failed
    assertion, in a debug build, is [Abort]; the use of Python while it is not initialised is [Undef].

    Simplifications: the counts that are of type [size_t] do not wrap around.  GDAL is its list of
    drivers, which have a name and an address; addresses are not used again.  Of parsing, only the file
    that is opened is modelled. *)
From Coq Require Import String List Bool Arith NArith.
Import ListNotations.
Local Open Scope string_scope.
Local Open Scope list_scope.

Inductive res (A : Type) := Ok (a : A) | Abort | Undef.
Arguments Ok {A} _. Arguments Abort {A}. Arguments Undef {A}.
Definition bind {A B} (p : res A) (f : A -> res B) : res B :=
  match p with Ok a => f a | Abort => Abort | Undef => Undef end.
Notation "x <~ p ;; q" := (bind p (fun x => q)) (at level 61, p at next level, right associativity).

Inductive kind := Hdf5 | Fern | Gdal | Raster | Parser.
Inductive driver := FernDriver | GdalDriver (address : nat).

Record state := State {
  hdf5_count : nat; hdf5_open : bool;
  fern_count : nat; gdal_count : nat; raster_count : nat;
  (** GDAL's drivers; the address of the next one; [drivers] (language/io/drivers.cc:17) *)
  manager : list (string * nat); next : nat;
  drivers : list (string * driver);
  (** whether Python is initialised; [Client::_count], an [unsigned short]; the files that are open *)
  python_on : bool; python_count : N; files : nat
}.

Definition has {A} (l : list (string * A)) (n : string) : bool := existsb (fun e => String.eqb (fst e) n) l.
(** [std::map::erase]; also [DeregisterDriver] *)
Definition erase {A} (n : string) (l : list (string * A)) : list (string * A) :=
  filter (fun e => negb (String.eqb (fst e) n)) l.
Definition check (debug b : bool) : res unit := if debug && negb b then Abort else Ok tt.

Section Clients.
Variable debug : bool.
(** The drivers that GDAL has, those that are known to contain bugs (gdal_client.cc:23-32), and the
    number of files that can be open *)
Variables (available skip : list string) (limit : nat).

(** GDAL: [GDALAllRegister] *)
Fixpoint register_missing (l : list string) (m : list (string * nat)) (k : nat) : list (string * nat) * nat :=
  match l with
  | [] => (m, k)
  | n :: l' => if has m n then register_missing l' m k else register_missing l' (m ++ [(n, k)]) (S k)
  end.

(** gdal_client.cc:85-93 *)
Fixpoint add_drivers (m : list (string * nat)) (d : list (string * driver)) : res (list (string * driver)) :=
  match m with
  | [] => Ok d
  | (n, k) :: m' => _ <~ check debug (negb (has d n)) ;; add_drivers m' (erase n d ++ [(n, GdalDriver k)])
  end.

(** gdal_client.cc:35-50 *)
Definition erase_driver (n : string) (x : list (string * nat) * list (string * driver)) : res (list (string * nat) * list (string * driver)) :=
  _ <~ check debug (has (snd x) n) ;; Ok (erase n (fst x), erase n (snd x)).
(** gdal_client.cc:53-62, and 97-110: GDAL's first driver until there is none *)
Fixpoint erase_drivers (l : list string) (x : list (string * nat) * list (string * driver)) : res (list (string * nat) * list (string * driver)) :=
  match l with [] => Ok x | n :: l' => x <~ erase_driver n x ;; erase_drivers l' x end.

(** gdal_client.cc:113-134, with 23-32 and 80-94 *)
Definition make_gdal (s : state) : res state :=
  let c := S (gdal_count s) in
  let done m k d := State (hdf5_count s) (hdf5_open s) (fern_count s) c (raster_count s) m k d (python_on s) (python_count s) (files s) in
  if Nat.eqb c 1 then
    let (m, k) := register_missing available (manager s) (next s) in
    d <~ add_drivers m (drivers s) ;;
    x <~ erase_drivers (filter (has m) skip) (m, d) ;;
    Ok (done (fst x) k (snd x))
  else Ok (done (manager s) (next s) (drivers s)).
(** gdal_client.cc:137-147 *)
Definition destroy_gdal (s : state) : res state :=
  _ <~ check debug (Nat.ltb 0 (gdal_count s)) ;;
  let c := pred (gdal_count s) in
  x <~ (if Nat.eqb c 0 then erase_drivers (map fst (manager s)) (manager s, drivers s) else Ok (manager s, drivers s)) ;;
  Ok (State (hdf5_count s) (hdf5_open s) (fern_count s) c (raster_count s) (fst x) (next s) (snd x) (python_on s) (python_count s) (files s)).

(** io/gdal/gdal_client.cc:31-40, 60-63 *)
Definition make_raster (s : state) : res state :=
  let c := S (raster_count s) in
  let (m, k) := if Nat.eqb c 1 then register_missing available (manager s) (next s) else (manager s, next s) in
  Ok (State (hdf5_count s) (hdf5_open s) (fern_count s) (gdal_count s) c m k (drivers s) (python_on s) (python_count s) (files s)).
(** io/gdal/gdal_client.cc:49-57, 66-81 *)
Definition destroy_raster (s : state) : res state :=
  _ <~ check debug (Nat.ltb 0 (raster_count s)) ;;
  let c := pred (raster_count s) in
  Ok (State (hdf5_count s) (hdf5_open s) (fern_count s) (gdal_count s) c (if Nat.eqb c 0 then [] else manager s) (next s) (drivers s) (python_on s) (python_count s) (files s)).

(** fern_client.cc:22-29, 43-48 *)
Definition make_fern (s : state) : res state :=
  let c := S (fern_count s) in
  d <~ (if Nat.eqb c 1 then _ <~ check debug (negb (has (drivers s) "Fern")) ;; Ok (erase "Fern" (drivers s) ++ [("Fern", FernDriver)])
        else Ok (drivers s)) ;;
  Ok (State (hdf5_count s) (hdf5_open s) c (gdal_count s) (raster_count s) (manager s) (next s) d (python_on s) (python_count s) (files s)).
(** fern_client.cc:32-40, 51-55 *)
Definition destroy_fern (s : state) : res state :=
  _ <~ check debug (Nat.ltb 0 (fern_count s)) ;;
  let c := pred (fern_count s) in
  d <~ (if Nat.eqb c 0 then _ <~ check debug (has (drivers s) "Fern") ;; Ok (erase "Fern" (drivers s)) else Ok (drivers s)) ;;
  Ok (State (hdf5_count s) (hdf5_open s) c (gdal_count s) (raster_count s) (manager s) (next s) d (python_on s) (python_count s) (files s)).

(** hdf5_client.cc:20-31 *)
Definition make_hdf5 (s : state) : res state :=
  let c := S (hdf5_count s) in
  Ok (State c (if Nat.eqb c 1 then true else hdf5_open s) (fern_count s) (gdal_count s) (raster_count s) (manager s) (next s) (drivers s) (python_on s) (python_count s) (files s)).
(** hdf5_client.cc:34-49 *)
Definition destroy_hdf5 (s : state) : res state :=
  _ <~ check debug (Nat.ltb 0 (hdf5_count s)) ;;
  let c := pred (hdf5_count s) in
  Ok (State c (if Nat.eqb c 0 then false else hdf5_open s) (fern_count s) (gdal_count s) (raster_count s) (manager s) (next s) (drivers s) (python_on s) (python_count s) (files s)).

Definition with_python (on : bool) (count : N) (open : nat) (s : state) : state :=
  State (hdf5_count s) (hdf5_open s) (fern_count s) (gdal_count s) (raster_count s) (manager s) (next s) (drivers s) on count open.
Definition short (n : N) : N := N.modulo n 65536.

(** python/client.cc:26-30, algebra_parser.cc:976-982; [Py_Initialize] *)
Definition make_parser (s : state) : res state := Ok (with_python true (short (python_count s + 1)) (files s) s).
(** python/client.cc:36-45; [Py_Finalize] *)
Definition destroy_parser (s : state) : res state :=
  if python_on s then
    _ <~ check debug (N.ltb 0 (python_count s)) ;;
    Ok (with_python false (short (python_count s + 65535)) (files s) s)
  else Ok s.

(** What happens: an instance is made or destructed; a script is parsed, from a string, or from a file
    that can be opened for reading or not *)
Inductive event := Make (k : kind) | Destroy (k : kind) | ParseString | ParseFile (readable : bool).

(** algebra_parser.cc:993-1005, 1016-1039; Python does not close the file, and neither does fern *)
Definition step (e : event) (s : state) : res state :=
  match e with
  | Make Hdf5 => make_hdf5 s | Make Fern => make_fern s | Make Gdal => make_gdal s | Make Raster => make_raster s | Make Parser => make_parser s
  | Destroy Hdf5 => destroy_hdf5 s | Destroy Fern => destroy_fern s | Destroy Gdal => destroy_gdal s | Destroy Raster => destroy_raster s
  | Destroy Parser => destroy_parser s
  | ParseString => if python_on s then Ok s else Undef
  | ParseFile readable =>
      if python_on s then
        if readable && Nat.ltb (files s) limit then Ok (with_python true (python_count s) (S (files s)) s) else Ok s
      else Undef
  end.
Fixpoint run (l : list event) (s : state) : res state :=
  match l with [] => Ok s | e :: l' => s <~ step e s ;; run l' s end.
End Clients.

(** When a program starts *)
Definition start : state := State 0 false 0 0 0 [] 0 [] false 0 0.
