(** * What command lines should mean *)
From Coq Require Import String ZArith List Bool Ascii.
From Verif Require Import StringModel FeatureModel FieldModel DriverModel ToolModel.
Import ListNotations.

(** The words that are understood as the first argument *)
Definition first_words : list text :=
  [lit "--help"; lit "--version"; lit "--build"; lit "compile"; lit "describe"; lit "execute"; lit "import"].
(** The name of a script on the command line is that of its file; [-] means standard input, for
    which the interpreter is given no name. *)
Definition script_name (a name : text) : Prop := (a = lit "-" /\ name = []) \/ (a <> lit "-" /\ name = a).

(** A list of options out of two words, the first and the second of which have been given or not *)
Definition options (word1 word2 : string) (l : list text) (given1 given2 : bool) : Prop :=
  (forall a, In a l -> a = lit word1 \/ a = lit word2) /\
  (given1 = true <-> In (lit word1) l) /\ (given2 = true <-> In (lit word2) l).

(** Command lines with too many, not enough or unknown words *)
Inductive wrong_usage : list text -> Prop :=
| Execute_many a b l : a <> lit "--help" -> wrong_usage (lit "execute" :: a :: b :: l)
| Describe_many a b l : a <> lit "--help" -> wrong_usage (lit "describe" :: a :: b :: l)
| Import_few a : a <> lit "--help" -> wrong_usage [lit "import"; a]
| Import_many a b c l : a <> lit "--help" -> wrong_usage (lit "import" :: a :: b :: c :: l)
| Compile_unknown a l : a <> lit "--help" -> a <> lit "fern" -> a <> lit "dot" -> a <> lit "c++" -> a <> lit "python" -> a <> lit "xml" ->
    wrong_usage (lit "compile" :: a :: l)
| Dot_unknown a l : a <> lit "--help" -> a <> lit "ast" -> a <> lit "flowgraph" -> wrong_usage (lit "compile" :: lit "dot" :: a :: l)
| Cpp_few o c d : o <> [] -> options "--dump_cmake" "--dump_driver" o c d -> wrong_usage (lit "compile" :: lit "c++" :: o)
| Cpp_one o c d a : options "--dump_cmake" "--dump_driver" o c d -> a <> lit "--help" ->
    wrong_usage (lit "compile" :: lit "c++" :: o ++ [a])
| Cpp_many o c d a b e l : options "--dump_cmake" "--dump_driver" o c d -> a <> lit "--help" ->
    a <> lit "--dump_cmake" -> a <> lit "--dump_driver" -> wrong_usage (lit "compile" :: lit "c++" :: o ++ a :: b :: e :: l)
| Ast_few o c u : o <> [] -> options "--with-cfg" "--with-use" o c u -> wrong_usage (lit "compile" :: lit "dot" :: lit "ast" :: o)
| Ast_many o c u a b e f l : options "--with-cfg" "--with-use" o c u -> a <> lit "--help" ->
    a <> lit "--with-cfg" -> a <> lit "--with-use" -> wrong_usage (lit "compile" :: lit "dot" :: lit "ast" :: o ++ a :: b :: e :: f :: l)
| Flow_many a b e f l : a <> lit "--help" -> wrong_usage (lit "compile" :: lit "dot" :: lit "flowgraph" :: a :: b :: e :: f :: l).

(** Command lines that ask for help, the version and the like *)
Inductive question : list text -> Prop :=
| General_help l : question (lit "--help" :: l)
| The_version l : question (lit "--version" :: l)
| The_build l : question (lit "--build" :: l)
| Command_none c : In c [lit "execute"; lit "describe"; lit "import"; lit "compile"] -> question [c]
| Command_help c l : In c [lit "execute"; lit "describe"; lit "import"; lit "compile"] -> question (c :: lit "--help" :: l)
| Language_none c : In c [lit "dot"; lit "c++"; lit "xml"] -> question [lit "compile"; c]
| Language_help c l : In c [lit "dot"; lit "c++"; lit "xml"] -> question (lit "compile" :: c :: lit "--help" :: l)
| Graph_none c : In c [lit "ast"; lit "flowgraph"] -> question [lit "compile"; lit "dot"; c]
| Graph_help c l : In c [lit "ast"; lit "flowgraph"] -> question (lit "compile" :: lit "dot" :: c :: lit "--help" :: l).

(** The name of a file in a directory (the current one if it has no name): a slash is put between them
    if the name of the directory does not end in one. *)
Definition file_in (d n : text) : text :=
  d ++ (if ends_with d (lit "/") || same_text d [] then [] else lit "/") ++ n.

(** The files a command line names for writing: the one behind the script for a graph, and files in
    the directory behind the script for C++ *)
Definition named_for_writing (args : list text) (n : text) : Prop :=
  (exists kind o input, In kind [lit "ast"; lit "flowgraph"] /\ args = lit "compile" :: lit "dot" :: kind :: o ++ [input; n]) \/
  (exists o input directory name, args = lit "compile" :: lit "c++" :: o ++ [input; directory] /\
     In n [file_in directory (name ++ lit ".h"); file_in directory (name ++ lit ".cc");
           file_in directory (lit "CMakeLists.txt"); file_in directory (lit "main.cc")]).

(** The words that ask for a graph, and which one *)
Inductive graph_words {T} (ast_graph : bool -> bool -> T -> text) (flow_graph : T -> text) : list text -> (T -> text) -> Prop :=
| Tree o cfg use : options "--with-cfg" "--with-use" o cfg use -> graph_words ast_graph flow_graph (lit "ast" :: o) (ast_graph cfg use)
| Flow : graph_words ast_graph flow_graph [lit "flowgraph"] flow_graph.
(** The message of an exception *)
Definition message_of (e : exn) : text := match e with FernException m => m | OtherException w => w end.
