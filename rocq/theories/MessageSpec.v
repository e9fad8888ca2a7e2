(** * What errors are to tell *)
From Coq Require Import String Ascii ZArith List Bool Arith.
From Verif Require Import StringModel MessageModel.
From Verif Require DecimalModel AnnotateModel.
Import ListNotations.

(** The texts of messages: what comes first, and what follows each of the arguments *)
Definition frame (id : message_id) : string * list string :=
  match id with
  | UNKNOWN_ERROR => ("Sorry, unknown error", [])
  | IO_ERROR => ("I/O error handling ", [": "; ""])
  | DOES_NOT_EXIST => ("Does not exist", [])
  | CANNOT_BE_READ => ("Cannot be read", [])
  | CANNOT_BE_WRITTEN => ("Cannot be written", [])
  | CANNOT_BE_CREATED => ("Cannot be created", [])
  | DOES_NOT_CONFORM_TO_CONVENTION => ("Does not conform to convention: ", [""])
  | DOES_NOT_CONTAIN_VARIABLE => ("Does not contain variable: ", [""])
  | VARIABLE_IS_NOT_A_SCALAR => ("Variable is not a scalar: ", [""])
  | DOES_NOT_CONTAIN_FEATURE => ("Does not contain feature: ", [""])
  | DOES_NOT_CONTAIN_ATTRIBUTE => ("Does not contain attribute: ", [""])
  | DOES_NOT_CONTAIN_DATA => ("Does not contain data: ", [""])
  | UNSUPPORTED_VALUE_TYPE => ("Unsupported value type: ", [": "; ""])
  | NO_SUCH_DRIVER => ("No such driver: ", [""])
  | ERROR_PARSING => ("Error parsing ", [":"; ":"; ": "; ""])
  | ERROR_PARSING_STATEMENT => ("Error parsing ", [":"; ":"; ":"; ": "; ""])
  | UNSUPPORTED_LANGUAGE_CONSTRUCT => ("Unsupported language construct: ", [""])
  | UNDEFINED_IDENTIFIER => ("Undefined identifier: ", [""])
  | UNDEFINED_OPERATION => ("Undefined operation: ", [""])
  | WRONG_NUMBER_OF_ARGUMENTS => ("Wrong number of arguments for operation: ", [": "; " required, but "; " provided"])
  | WRONG_TYPE_OF_ARGUMENT => ("Wrong type of argument ", [" provided for operation: "; ": "; " required, but "; " provided"])
  | ERROR_VALIDATING => ("", [":"; ":"; ": "; ""])
  end%string.

Fixpoint filled (first : string) (rest : list string) (arguments : list text) : text :=
  match rest, arguments with
  | r :: rest', a :: arguments' => lit first ++ a ++ filled r rest' arguments'
  | _, _ => lit first
  end.

(** Where something is wrong *)
Definition place (source_name : text) (line col : Z) : text :=
  source_name ++ lit ":" ++ DecimalModel.show_int line ++ lit ":" ++ DecimalModel.show_int col.

Definition parse_told (source_name : text) (line col : Z) (m : text) : text :=
  lit "Error parsing " ++ place source_name line col ++ lit ": " ++ m.
Definition statement_told (source_name : text) (line col : Z) (statement m : text) : text :=
  lit "Error parsing " ++ place source_name line col ++ lit ":" ++ statement ++ lit ": " ++ m.
Definition validate_told (source_name : text) (line col : Z) (m : text) : text :=
  place source_name line col ++ lit ": " ++ m.

(** What is wrong with a vertex *)
Definition wrong (required provided : nat -> nat -> text) (p : AnnotateModel.problem) : text :=
  match p with
  | AnnotateModel.UndefinedIdentifier x _ => lit "Undefined identifier: " ++ lit x
  | AnnotateModel.UndefinedOperation f _ => lit "Undefined operation: " ++ lit f
  | AnnotateModel.WrongNumberOfArguments f r p _ =>
      lit "Wrong number of arguments for operation: " ++ lit f ++ lit ": " ++ DecimalModel.show_int (Z.of_nat r) ++
      lit " required, but " ++ DecimalModel.show_int (Z.of_nat p) ++ lit " provided"
  | AnnotateModel.WrongTypeOfArgument f i v =>
      lit "Wrong type of argument " ++ DecimalModel.show_int (Z.of_nat i) ++ lit " provided for operation: " ++ lit f ++ lit ": " ++
      required v i ++ lit " required, but " ++ provided v i ++ lit " provided"
  end.
Definition vertex_of (p : AnnotateModel.problem) : nat :=
  match p with
  | AnnotateModel.UndefinedIdentifier _ v | AnnotateModel.UndefinedOperation _ v
  | AnnotateModel.WrongNumberOfArguments _ _ _ v | AnnotateModel.WrongTypeOfArgument _ _ v => v
  end.
