(** * The interpreter

    Models [annotate], [validate] and [execute] of [language/interpreter/interpreter.cc].  The
    links set by the thread and identify visitors (interpreter.cc:269-273) are not looked at by
    the other visitors, and are left out; C51 is about the latter. *)

From Coq Require Import String List Bool Arith ZArith.
From Verif Require Import AstModel SymbolModel FlagModel AnnotateModel IoModel ExecModel.
Import ListNotations.

Section Interpret.
Context {A : Type}.
Variable operations : string -> option aop.
Variable const_type : A -> expression_type.
Variable exec_operations : string -> option (op A).

(** interpreter.h: the annotation visitor and the execute visitor live as long as the interpreter *)
Record interp := { annotator : annot; back_end : exec A }.

(** interpreter.cc:58-69 *)
Definition interp_initial : interp := {| annotator := annot_initial; back_end := exec_initial |}.

(** What a call ends with: it returns, it throws an exception, or an assertion fails. *)
Inductive outcome := Done (i : interp) | Error (p : problem) (i : interp) | Broken.

(** The data sources passed in: name, type and value.  A table has one source for each name. *)
Definition source : Type := string * expression_type * A.
Definition source_types (l : list source) : scope expression_type := map fst l.
Definition source_values (l : list source) : scope A := map (fun p => (fst (fst p), snd p)) l.

(** interpreter.cc:255-277, 28-45 *)
Definition call_annotate (m : list (stmt A)) (l : list source) (i : interp) : outcome :=
  match add_global_symbols (source_types l) (annotator i) with
  | Some s =>
      match annotate_module operations const_type m s with
      | Some s' => Done {| annotator := s'; back_end := back_end i |}
      | None => Broken
      end
  | None => Broken
  end.

(** interpreter.cc:300-400: the exceptions are translated one by one *)
Definition call_validate (m : list (stmt A)) (l : list source) (i : interp) : outcome :=
  match call_annotate m l i with
  | Done i' =>
      match validate_module (annotator i') m with
      | Accepted => Done i'
      | Rejected p => Error p i'
      | Failed => Broken
      end
  | o => o
  end.

(** interpreter.cc:415-446 *)
Definition call_execute (m : list (stmt A)) (l : list source) (names : list string) (i : interp) : outcome :=
  match call_validate m l i with
  | Done i' =>
      match set_data_source_symbols (source_values l) (back_end i') with
      | Some s =>
          match exec_module exec_operations m (set_data_sync_symbols names s) with
          | Some s' => Done {| annotator := annotator i'; back_end := s' |}
          | None => Broken
          end
      | None => Broken
      end
  | o => o
  end.
End Interpret.
Arguments interp A : clear implicits.
Arguments outcome A : clear implicits.
Arguments source A : clear implicits.

(** ** What executing the operations of the library does *)
Local Open Scope string_scope.

(** A value is a number with its type; fields, strings and the contents of datasets are left
    out. *)
Definition number : Type := expression_type * Z.
Definition int64_constant : expression_type :=
  {| et_data := dt_flags DT_CONSTANT; et_value := vt_flags VT_INT64 |}.

(** abs.cc:126-151 for constants (wrapping is left out), add.cc:52-68, int32.cc:48-62: [add]
    returns no result, and an assertion of [int32] always fails *)
Definition library_execution (f : string) : option (op number) :=
  if String.eqb f "abs" then
    Some {| arity := 1; execute := fun vs => match vs with [(t, v)] => Some [(t, Z.abs v)] | _ => None end |}
  else if String.eqb f "add" then
    Some {| arity := 2;
            execute := fun vs => match vs with
                                 | [(t, _); _] => if et_eq t int64_constant then Some [] else None
                                 | _ => None end |}
  else if String.eqb f "int32" then Some {| arity := 1; execute := fun _ => None |}
  else None.
