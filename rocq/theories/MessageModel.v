(** * What errors tell

    Models [core/messages.cc], [core/messages.h], [core/exception.cc], [core/io_error.cc],
    [core/script_error.cc], [core/parse_error.cc], [core/validate_error.cc], and the parts of
    [language/interpreter/interpreter.cc], [language/ast/xml/xml_parser.cc] and
    [language/script/algebra_parser.cc] that make these exceptions of the errors found in scripts.

    A failed assertion, in a debug build, is [Abort]; following a null pointer is [Undef]; an exception
    of the library that formats texts, where another one was to be made or told, is [Throws].

    Simplifications: [boost::format] is modelled for texts that contain no other directives than the
    numbers from 1 to 9 between percent signs; what cannot be parsed so is [Throws].  The texts of
    [std::strerror] and of the types of arguments are parameters. *)
From Coq Require Import String Ascii ZArith List Bool Arith.
From Verif Require Import StringModel.
From Verif Require DecimalModel RefModel AnnotateModel.
Import ListNotations.

Inductive res (A : Type) := Ok (a : A) | Throws | Abort | Undef.
Arguments Ok {A} _. Arguments Throws {A}. Arguments Abort {A}. Arguments Undef {A}.
Definition bind {A B} (p : res A) (f : A -> res B) : res B :=
  match p with Ok a => f a | Throws => Throws | Abort => Abort | Undef => Undef end.
Notation "x <~ p ;; q" := (bind p (fun x => q)) (at level 61, p at next level, right associativity).

(** core/message_id.h:14-48 *)
Inductive message_id :=
| UNKNOWN_ERROR
| IO_ERROR | DOES_NOT_EXIST | CANNOT_BE_READ | CANNOT_BE_WRITTEN | CANNOT_BE_CREATED
| DOES_NOT_CONFORM_TO_CONVENTION | DOES_NOT_CONTAIN_VARIABLE | VARIABLE_IS_NOT_A_SCALAR
| DOES_NOT_CONTAIN_FEATURE | DOES_NOT_CONTAIN_ATTRIBUTE | DOES_NOT_CONTAIN_DATA
| UNSUPPORTED_VALUE_TYPE | NO_SUCH_DRIVER
| ERROR_PARSING | ERROR_PARSING_STATEMENT
| UNSUPPORTED_LANGUAGE_CONSTRUCT | UNDEFINED_IDENTIFIER | UNDEFINED_OPERATION
| WRONG_NUMBER_OF_ARGUMENTS | WRONG_TYPE_OF_ARGUMENT
| ERROR_VALIDATING.
Definition same_id (a b : message_id) : {a = b} + {a <> b}. Proof. decide equality. Defined.

(** core/messages.cc:15-90 *)
Definition messages : list (message_id * text) := [
  (UNKNOWN_ERROR, lit "Sorry, unknown error");
  (IO_ERROR, lit "I/O error handling %1%: %2%");
  (DOES_NOT_EXIST, lit "Does not exist");
  (CANNOT_BE_READ, lit "Cannot be read");
  (CANNOT_BE_WRITTEN, lit "Cannot be written");
  (CANNOT_BE_CREATED, lit "Cannot be created");
  (DOES_NOT_CONFORM_TO_CONVENTION, lit "Does not conform to convention: %1%");
  (DOES_NOT_CONTAIN_VARIABLE, lit "Does not contain variable: %1%");
  (VARIABLE_IS_NOT_A_SCALAR, lit "Variable is not a scalar: %1%");
  (DOES_NOT_CONTAIN_FEATURE, lit "Does not contain feature: %1%");
  (DOES_NOT_CONTAIN_ATTRIBUTE, lit "Does not contain attribute: %1%");
  (DOES_NOT_CONTAIN_DATA, lit "Does not contain data: %1%");
  (UNSUPPORTED_VALUE_TYPE, lit "Unsupported value type: %1%: %2%");
  (NO_SUCH_DRIVER, lit "No such driver: %1%");
  (ERROR_PARSING, lit "Error parsing %1%:%2%:%3%: %4%");
  (ERROR_PARSING_STATEMENT, lit "Error parsing %1%:%2%:%3%:%4%: %5%");
  (UNSUPPORTED_LANGUAGE_CONSTRUCT, lit "Unsupported language construct: %1%");
  (UNDEFINED_IDENTIFIER, lit "Undefined identifier: %1%");
  (UNDEFINED_OPERATION, lit "Undefined operation: %1%");
  (WRONG_NUMBER_OF_ARGUMENTS, lit "Wrong number of arguments for operation: %1%: %2% required, but %3% provided");
  (WRONG_TYPE_OF_ARGUMENT, lit "Wrong type of argument %1% provided for operation: %2%: %3% required, but %4% provided");
  (ERROR_VALIDATING, lit "%1%:%2%:%3%: %4%")].

Definition find_message (id : message_id) : option text :=
  match find (fun e => if same_id (fst e) id then true else false) messages with
  | Some e => Some (snd e)
  | None => None
  end.

(** ** Boost: [format] *)
Inductive piece := Literal (c : ascii) | Slot (n : nat).

Definition percent : ascii := "%"%char.
(** The numbers of slots, from 1 to 9 *)
Definition slot_number (c : ascii) : option nat :=
  let n := nat_of_ascii c in if Nat.leb 49 n && Nat.leb n 57 then Some (n - 48) else None.

Fixpoint pieces (s : text) : option (list piece) :=
  match s with
  | [] => Some []
  | c :: s' =>
      if Ascii.eqb c percent then
        match s' with
        | d :: s'' =>
            if Ascii.eqb d percent then option_map (cons (Literal percent)) (pieces s'')
            else match slot_number d, s'' with
                 | Some n, e :: rest => if Ascii.eqb e percent then option_map (cons (Slot n)) (pieces rest) else None
                 | _, _ => None
                 end
        | [] => None
        end
      else option_map (cons (Literal c)) (pieces s')
  end.

(** The number of arguments that are expected *)
Definition expected (l : list piece) : nat :=
  fold_right Nat.max 0 (map (fun p => match p with Slot n => n | Literal _ => 0 end) l).

(** Arguments that do not match what is expected are exceptions of [boost::format] *)
Definition format (s : text) (arguments : list text) : res text :=
  match pieces s with
  | None => Throws
  | Some l =>
      if Nat.eqb (length arguments) (expected l)
      then Ok (flat_map (fun p => match p with Literal c => [c] | Slot n => nth (pred n) arguments [] end) l)
      else Throws
  end.

Section Messages.
Variable debug : bool.

(** core/messages.cc:93-108 *)
Definition message_text (id : message_id) : res text :=
  match find_message id with
  | Some t => Ok t
  | None =>
      if debug then Abort
      else match find_message UNKNOWN_ERROR with Some t => Ok t | None => Undef end
  end.

(** core/messages.h:73-140 *)
Definition format_message (id : message_id) (arguments : list text) : res text :=
  s <~ message_text id ;; format s arguments.

Definition number (z : Z) : text := DecimalModel.show_int z.

(** ** Exceptions; [ParseError] has two constructors *)
Inductive exception :=
| IOError (source_name message : text)
| ParseError (id : message_id) (source_name : text) (line col : Z) (statement message : text)
| ValidateError (source_name : text) (line col : Z) (message : text).

Definition empty (s : text) : bool := match s with [] => true | _ => false end.
Definition check (b : bool) : res unit := if debug && negb b then Abort else Ok tt.

(** core/io_error.cc:15-40 *)
Definition io_error (source_name message : text) : res exception := Ok (IOError source_name message).
(** core/parse_error.cc:15-25 and 28-42, with script_error.cc:15-28 *)
Definition parse_error (source_name : text) (line col : Z) (message : text) : res exception :=
  _ <~ check (negb (empty source_name)) ;; Ok (ParseError ERROR_PARSING source_name line col [] message).
Definition parse_error_statement (source_name : text) (line col : Z) (statement message : text) : res exception :=
  _ <~ check (negb (empty source_name)) ;;
  _ <~ check (negb (empty statement)) ;;
  Ok (ParseError ERROR_PARSING_STATEMENT source_name line col statement message).
(** core/validate_error.cc:14-25 *)
Definition validate_error (source_name : text) (line col : Z) (message : text) : res exception :=
  _ <~ check (negb (empty source_name)) ;; Ok (ValidateError source_name line col message).

(** core/io_error.cc:46-52, parse_error.cc:45-68, validate_error.cc:28-40, exception.cc:39-42 *)
Definition message (e : exception) : res text :=
  match e with
  | IOError source_name m => s <~ message_text IO_ERROR ;; format s [source_name; m]
  | ParseError id source_name line col statement m =>
      s <~ message_text id ;;
      format s (if empty statement then [source_name; number line; number col; m]
                else [source_name; number line; number col; statement; m])
  | ValidateError source_name line col m =>
      s <~ message_text ERROR_VALIDATING ;; format s [source_name; number line; number col; m]
  end.

(** ** Errors in scripts *)

(** [get_error_info] and [assert] *)
Definition need {A} (o : option A) : res A := match o with Some a => Ok a | None => if debug then Abort else Undef end.

(** What parsing a script throws: [detail::ParseError], [detail::UnsupportedLanguageConstruct]
    (algebra_parser.cc:37-47, 916-921), and [detail::FileOpenError] (algebra_parser.cc:1023-1027) *)
Inductive problem :=
| Syntax (e : RefModel.parse_error)
| Construct (source_name kind : text) (line col : Z)
| Open (filename : text) (errno : Z).

(** xml_parser.cc:1208-1217 *)
Definition xml_problem (line col : Z) (message : text) : problem :=
  Syntax (RefModel.ParseError (Some (lit "<string>")) (Some line) (Some col) None (Some message)).

(** C: [std::strerror] *)
Variable strerror : Z -> text.

(** interpreter.cc:86-134 and 167-226 *)
Definition parse_exception (p : problem) : res exception :=
  match p with
  | Syntax e =>
      source_name <~ need (RefModel.error_source e) ;;
      line <~ need (RefModel.error_line e) ;;
      col <~ need (RefModel.error_column e) ;;
      m <~ need (RefModel.error_message e) ;;
      match RefModel.error_statement e with
      | None => parse_error source_name line col m
      | Some statement => parse_error_statement source_name line col statement m
      end
  | Construct source_name kind line col =>
      m <~ format_message UNSUPPORTED_LANGUAGE_CONSTRUCT [kind] ;; parse_error source_name line col m
  | Open filename errno => io_error filename (strerror errno)
  end.

(** interpreter.cc:302-392, of the problems of [AnnotateModel]; [position]: the line and column of a
    vertex; [required] and [provided]: the types of an argument, as text (validate_visitor.cc:75-77) *)
Variables (position : nat -> Z * Z) (required provided : nat -> nat -> text).
Definition words (s : string) : text := lit s.
Definition validate_exception (source_name : text) (p : AnnotateModel.problem) : res exception :=
  let at_ v m := validate_error source_name (fst (position v)) (snd (position v)) m in
  match p with
  | AnnotateModel.UndefinedIdentifier x v => m <~ format_message UNDEFINED_IDENTIFIER [words x] ;; at_ v m
  | AnnotateModel.UndefinedOperation f v => m <~ format_message UNDEFINED_OPERATION [words f] ;; at_ v m
  | AnnotateModel.WrongNumberOfArguments f r p v =>
      m <~ format_message WRONG_NUMBER_OF_ARGUMENTS [words f; number (Z.of_nat r); number (Z.of_nat p)] ;; at_ v m
  | AnnotateModel.WrongTypeOfArgument f i v =>
      m <~ format_message WRONG_TYPE_OF_ARGUMENT [number (Z.of_nat i); words f; required v i; provided v i] ;; at_ v m
  end.

(** What is told of an error *)
Definition told (e : res exception) : res text := e <~ e ;; message e.
End Messages.
