(** * The command line tool

    Models [language/command/{fern,command,execute_command,describe_command,import_command,
    compile_command}.cc], and [language/compiler/compiler.cc] with the functions of
    [language/io/core/file.cc] it calls.

    Simplifications: a script that has been parsed is an abstract value; what the parser, the
    interpreter, the visitors and the descriptions of data do are parameters (they are modelled
    elsewhere); help texts are not spelled out; commands are constructed without an exception.
    Writing to a file that can be opened for writing succeeds; no two names denote the same file. *)
From Coq Require Import String ZArith List Bool Ascii.
From Verif Require Import StringModel FeatureModel FieldModel DriverModel.
Import ListNotations.

(** core/exception.h:30-58: exceptions of fern have a message, but do not override [what()]. *)
Inductive exn := FernException (message : text) | OtherException (what : text).
Definition what_of (e : exn) : text := match e with FernException _ => lit "std::exception" | OtherException w => w end.
(** How a call ends: it returns, throws, fails an assertion, or what happens is undefined. *)
Inductive res (A : Type) := Returns (a : A) | Throws (e : exn) | Fails | Unknown.
Arguments Returns {A}. Arguments Throws {A}. Arguments Fails {A}. Arguments Unknown {A}.

Inductive status := Success | Failure.
(** Which help text *)
Inductive topic :=
| General | Execute | Describe | Import | Compile | Cpp | Dot | Ast | Flowgraph | Xml.
(** What is written to standard output and standard error *)
Inductive output :=
| Help (t : topic) | Version | Build | NotSupported | Lines (t : text)
| TooMany | NotEnough | UnknownWord (w : text).

Definition disk := text -> option text.
Definition put (fs : disk) (n : text) (t : text) : disk := fun m => if same_text m n then Some t else fs m.
Record state (T : Type) := State {
  disk_of : disk;
  out : list output;
  err : list output;
  (* scripts that have been executed *)
  executed : list T }.
Arguments State {T}. Arguments disk_of {T}. Arguments out {T}. Arguments err {T}. Arguments executed {T}.

(** core/path.cc:108-122: [/] of paths, for [n] the name of a file, as it is below; what std::filesystem
    does for absolute paths at the right is not modelled *)
Definition join_path (d n : text) : text :=
  match d with
  | [] => n
  | _ => if Ascii.eqb (last d " "%char) "/" then d ++ n else d ++ "/"%char :: n
  end.

Section Tool.
Context {T : Type}.
Variable debug : bool.
(** [Interpreter::parse_file]; the script on standard input for an empty name *)
Variable parse_file : disk -> text -> res T.
(** [ModuleVertex::source_name] *)
Variable source_name : T -> text.
(** [Interpreter::execute], [Interpreter::annotate] *)
Variable run : disk -> T -> disk * res unit.
Variable annotate : T -> res T.
(** The visitors that make graphs; options for the first are whether control flow and uses are shown. *)
Variables (ast_graph : bool -> bool -> T -> text) (flow_graph : T -> text).
(** [enter_interpreter] *)
Variable interactive : disk -> disk * res unit.
(** [DescribeCommand::describe] *)
Variable describe : disk -> text -> res (list output).
(** CompileVisitor: the texts of the header and the module, given the name of the header; [None]: an
    operation is not known, which is a failed assertion *)
Variable cpp : T -> text -> option (text * text).
(** The texts of the other files, by the name of the module; [bool]: whether there is a driver *)
Variables (cmake_text : text -> bool -> text) (driver_text : text -> text).
(** Whether a file may be opened for writing (and made); whether there is a directory that may be
    written to *)
Variables (may_write : disk -> text -> bool) (directory_writable : text -> bool).

Local Notation state := (state T).
Definition say (o : output) (s : state) : state := State (disk_of s) (out s ++ [o]) (err s) (executed s).
Definition complain (o : output) (s : state) : state := State (disk_of s) (out s) (err s ++ [o]) (executed s).
Definition with_disk (fs : disk) (s : state) : state := State fs (out s) (err s) (executed s).

Definition is_word (w : string) (t : text) : bool := same_text t (lit w).
Definition wants_help (args : list text) : bool :=
  match args with [] => true | a :: _ => is_word "--help" a end.
(** A name on the command line: [-] is standard input *)
Definition input_name (a : text) : text := if is_word "-" a then [] else a.

(** command.cc:83-94; nothing is checked *)
Definition write (t name : text) (s : state) : state :=
  match name with
  | [] => say (Lines t) s
  | _ => if may_write (disk_of s) name then with_disk (put (disk_of s) name t) s else s
  end.

Definition bind_res {A B} (r : res A) (k : A -> state * res B) (s : state) : state * res B :=
  match r with Returns a => k a | Throws e => (s, Throws e) | Fails => (s, Fails) | Unknown => (s, Unknown) end.

(** execute_command.cc:41-71; [args] are those behind the name of the command, here and below *)
Definition execute (args : list text) (s : state) : state * res status :=
  if wants_help args then (say (Help Execute) s, Returns Success)
  else
    match args with
    | [a] =>
        bind_res (parse_file (disk_of s) (input_name a)) (fun t =>
          let (fs, r) := run (disk_of s) t in
          let s := State fs (out s) (err s) (executed s ++ [t]) in
          bind_res r (fun _ => (s, Returns Success)) s) s
    | _ => (say (Help Execute) (complain TooMany s), Returns Failure)
    end.

(** describe_command.cc:103-127 *)
Definition describe_command (args : list text) (s : state) : state * res status :=
  if wants_help args then (say (Help Describe) s, Returns Success)
  else
    match args with
    | [a] => bind_res (describe (disk_of s) a) (fun l => (fold_left (fun s o => say o s) l s, Returns Success)) s
    | _ => (say (Help Describe) (complain TooMany s), Returns Failure)
    end.

(** import_command.cc:43-70 *)
Definition import (args : list text) (s : state) : state * res status :=
  if wants_help args then (say (Help Import) s, Returns Success)
  else
    match args with
    | [_] => (say (Help Import) (complain NotEnough s), Returns Failure)
    | [_; _] => (s, Returns Success)
    | _ => (say (Help Import) (complain TooMany s), Returns Failure)
    end.

(** file.cc:100-112 *)
Definition write_file (t name : text) (s : state) : state * res unit :=
  if may_write (disk_of s) name then (with_disk (put (disk_of s) name t) s, Returns tt)
  else if debug then (s, Fails) else (s, Returns tt).

(** compiler.cc:72-94: whether a file may be overwritten or made.  file_is_writable (file.cc:48-69)
    is [may_write] of a file that exists. *)
Definition writable (s : state) (directory name : text) : bool :=
  match disk_of s name with
  | Some _ => may_write (disk_of s) name
  | None => directory_writable (parent_path directory)
  end.

Definition seq_res {A} (p : state * res unit) (k : state -> state * res A) : state * res A :=
  let (s, r) := p in
  match r with Returns _ => k s | Throws e => (s, Throws e) | Fails => (s, Fails) | Unknown => (s, Unknown) end.

(** compiler.cc:50-221 *)
Definition compile_files (input directory : text) (cmake driver : bool) (s : state) : state * res unit :=
  bind_res (parse_file (disk_of s) input) (fun t =>
    let name := stem (filename (source_name t)) in
    let header := name ++ lit ".h" in
    let header_path := join_path directory header in
    let module_path := join_path directory (name ++ lit ".cc") in
    if debug && negb (directory_writable directory && writable s directory header_path && writable s directory module_path)
    then (s, Fails)
    else
      match cpp t header with
      | None => (s, if debug then Fails else Unknown)
      | Some (h, m) =>
          seq_res (write_file h header_path s) (fun s =>
          seq_res (write_file m module_path s) (fun s =>
          seq_res (if cmake then write_file (cmake_text name driver) (join_path directory (lit "CMakeLists.txt")) s
                   else (s, Returns tt)) (fun s =>
          if driver then write_file (driver_text name) (join_path directory (lit "main.cc")) s
          else (s, Returns tt))))
      end) s.

(** compile_command.cc:166-180 *)
Fixpoint cpp_options (args : list text) (cmake driver : bool) : bool * bool * list text :=
  match args with
  | a :: rest =>
      if is_word "--dump_driver" a then cpp_options rest cmake true
      else if is_word "--dump_cmake" a then cpp_options rest true driver
      else (cmake, driver, args)
  | [] => (cmake, driver, args)
  end.
(** compile_command.cc:153-206 *)
Definition compile_to_cpp (args : list text) (s : state) : state * res status :=
  if wants_help args then (say (Help Cpp) s, Returns Success)
  else
    let '(cmake, driver, names) := cpp_options args false false in
    match names with
    | [] | [_] => (say (Help Cpp) (complain NotEnough s), Returns Failure)
    | [input; directory] =>
        seq_res (compile_files (input_name input) directory cmake driver s) (fun s => (s, Returns Success))
    | _ => (say (Help Cpp) (complain TooMany s), Returns Failure)
    end.

(** compile_command.cc:235-248 *)
Fixpoint ast_options (args : list text) (cfg use : bool) : bool * bool * list text :=
  match args with
  | a :: rest =>
      if is_word "--with-cfg" a then ast_options rest true use
      else if is_word "--with-use" a then ast_options rest cfg true
      else (cfg, use, args)
  | [] => (cfg, use, args)
  end.
(** compile_command.cc:209-275, 278-329: names are the input, and the output if there are two *)
Definition compile_to_graph (graph : T -> text) (names : list text) (s : state) : state * res status :=
  match names with
  | [] => (say (Help Ast) (complain NotEnough s), Returns Failure)
  | input :: rest =>
      if Nat.ltb 3 (length names) then (say (Help Ast) (complain TooMany s), Returns Failure)
      else
        let output := match rest with [o] => o | _ => [] end in
        bind_res (parse_file (disk_of s) (input_name input)) (fun t =>
        bind_res (annotate t) (fun t => (write (graph t) output s, Returns Success)) s) s
  end.
Definition compile_to_dot_ast (args : list text) (s : state) : state * res status :=
  if wants_help args then (say (Help Ast) s, Returns Success)
  else
    let '(cfg, use, names) := ast_options args false false in
    compile_to_graph (ast_graph cfg use) names s.
Definition compile_to_dot_flowgraph (args : list text) (s : state) : state * res status :=
  if wants_help args then (say (Help Flowgraph) s, Returns Success)
  else compile_to_graph flow_graph args s.

(** compile_command.cc:332-356 *)
Definition compile_to_dot (args : list text) (s : state) : state * res status :=
  if wants_help args then (say (Help Dot) s, Returns Success)
  else
    match args with
    | a :: rest =>
        if is_word "ast" a then compile_to_dot_ast rest s
        else if is_word "flowgraph" a then compile_to_dot_flowgraph rest s
        else (complain (UnknownWord a) s, Returns Failure)
    | [] => (s, Returns Success)
    end.

(** compile_command.cc:368-402 *)
Definition compile_to_xml (args : list text) (s : state) : state * res status :=
  if wants_help args then (say (Help Xml) s, Returns Success)
  else if Nat.ltb 2 (length args) then (say (Help Xml) (complain TooMany s), Returns Failure)
  else (say NotSupported s, Returns Success).

(** compile_command.cc:405-446, with 144-150 and 359-365 *)
Definition compile_command (args : list text) (s : state) : state * res status :=
  let (s, r) :=
    if wants_help args then (say (Help Compile) s, Returns Success)
    else
      match args with
      | a :: rest =>
          if is_word "fern" a then (say NotSupported s, Returns Success)
          else if is_word "dot" a then compile_to_dot rest s
          else if is_word "c++" a then compile_to_cpp rest s
          else if is_word "python" a then (say NotSupported s, Returns Success)
          else if is_word "xml" a then compile_to_xml rest s
          else (complain (UnknownWord a) s, Returns Failure)
      | [] => (s, Returns Success)
      end in
  match r with
  | Throws (FernException m) => (complain (Lines m) s, Returns Failure)
  | Throws e => (complain (Lines (what_of e)) s, Returns Failure)
  | _ => (s, r)
  end.

(** fern.cc:67-76, 118-125: exceptions end the program with a message. *)
Definition guarded (p : state * res status) : state * res status :=
  match p with
  | (s, Throws e) => (complain (Lines (what_of e)) s, Returns Failure)
  | _ => p
  end.

(** fern.cc:59-128.  [args]: [argv] without the name of the program *)
Definition main (args : list text) (s : state) : state * res status :=
  match args with
  | [] =>
      let (fs, r) := interactive (disk_of s) in
      let s := with_disk fs s in
      guarded (bind_res r (fun _ => (s, Returns Success)) s)
  | a :: rest =>
      if is_word "--help" a then (say (Help General) s, Returns Success)
      else if is_word "--version" a then (say Version s, Returns Success)
      else if is_word "--build" a then (say Build s, Returns Success)
      else if is_word "compile" a then guarded (compile_command rest s)
      else if is_word "describe" a then guarded (describe_command rest s)
      else if is_word "execute" a then guarded (execute rest s)
      else if is_word "import" a then guarded (import rest s)
      else (say (Help General) s, if debug then Fails else Unknown)   (* no command *)
  end.
End Tool.
