(** * Scripts with function definitions

    Models how the visitors of [language/ast/visitor] and [language/interpreter] treat the
    definitions of functions and return statements.  None of the visitors modelled here overrides
    [Visit(FunctionDefinitionVertex&)] or [Visit(ReturnVertex&)], so the defaults of
    ast_visitor.cc:95-101, 204-211 are used.  Expressions and the states of the visitors are those
    of the models without functions.  [None] is a failed assertion.

    Simplifications: parameters are names, as the parser makes them; the thread visitor, which does
    look at definitions, is left out (C67 is about it), since nothing that it sets is looked at by
    the other visitors. *)

From Coq Require Import String List Bool Arith.
From Verif Require Import AstModel SymbolModel FlagModel IdentifyModel AnnotateModel IoModel ExecModel InterpretModel.
Import ListNotations.

Section Function.
Context {A : Type}.

(** assignment_vertex.h, if_vertex.h, while_vertex.h, function_definition_vertex.h:23-66,
    return_vertex.h *)
Inductive fstmt :=
| FAssign (target : nat) (name : string) (e : expr A)
| FExpr (e : expr A)
| FIf (condition : expr A) (true_scope false_scope : list fstmt)
| FWhile (condition : expr A) (true_scope false_scope : list fstmt)
| FDefine (name : string) (parameters : list (nat * string)) (body : list fstmt)
| FReturn (e : option (expr A)).

(** ast_visitor.cc:204-211 *)
Definition visit_returned {S} (f : expr A -> S -> option S) (e : option (expr A)) (s : S) : option S :=
  match e with Some e => f e s | None => Some s end.

(** A parameter is a name vertex. *)
Definition parameter (p : nat * string) : expr A := Name (fst p) (snd p).

(** ast_visitor.cc:95-101; identify_visitor.cc:25-45, 128-158 *)
Fixpoint fidentify_stmt (t : fstmt) (s : ident) : option ident :=
  let branch := fun b s =>
    match visits fidentify_stmt b (with_table (push_scope (symbol_table s)) s) with
    | Some s' =>
        match pop_scope (symbol_table s') with Some t' => Some (with_table t' s') | None => None end
    | None => None
    end in
  match t with
  | FAssign v x e =>
      match identify_expr e s with Some s' => identify_definition v x s' | None => None end
  | FExpr e => identify_expr e s
  | FIf c t f | FWhile c t f =>
      match identify_expr c s with
      | Some s1 => match branch t s1 with Some s2 => branch f s2 | None => None end
      | None => None
      end
  | FDefine _ ps b =>
      match visits identify_expr (map parameter ps) s with
      | Some s1 => visits fidentify_stmt b s1
      | None => None
      end
  | FReturn e => visit_returned identify_expr e s
  end.

(** identify_visitor.cc:117-125 *)
Definition fidentify_module (m : list fstmt) (s : ident) : option ident :=
  if empty (symbol_table s) then
    match visits fidentify_stmt m (with_table (push_scope (symbol_table s)) s) with
    | Some s' =>
        match pop_scope (symbol_table s') with
        | Some t => if empty t then Some (with_table t s') else None
        | None => None
        end
    | None => None
    end
  else None.

Section Visitors.
Variable operations : string -> option aop.
Variable const_type : A -> expression_type.
Variable exec_operations : string -> option (op A).

(** ast_visitor.cc:95-101, 125-132, 204-211, 291-298; annotate_visitor.cc:88-111 *)
Fixpoint fannotate_stmt (t : fstmt) (s : annot) : option annot :=
  match t with
  | FAssign v x e => annotate_stmt operations const_type (Assign v x e) s
  | FExpr e => annotate_expr operations const_type e s
  | FIf c t f | FWhile c t f =>
      match annotate_expr operations const_type c s with
      | Some s1 =>
          match visits fannotate_stmt t s1 with Some s2 => visits fannotate_stmt f s2 | None => None end
      | None => None
      end
  | FDefine _ ps b =>
      match visits (annotate_expr operations const_type) (map parameter ps) s with
      | Some s1 => visits fannotate_stmt b s1
      | None => None
      end
  | FReturn e => visit_returned (annotate_expr operations const_type) e s
  end.

(** ast_visitor.cc:50-56, 95-101, 125-132, 204-211, 291-298 *)
Fixpoint fvalidate_stmt (s : annot) (t : fstmt) : verdict :=
  let all := fold_right (fun a r => and_then (fvalidate_stmt s a) r) Accepted in
  match t with
  | FAssign v x e => and_then (validate_expr s e) (validate_name s v x)
  | FExpr e => validate_expr s e
  | FIf c t f | FWhile c t f => and_then (validate_expr s c) (and_then (all t) (all f))
  | FDefine _ ps b =>
      and_then (fold_right (fun a r => and_then (validate_expr s a) r) Accepted (map parameter ps)) (all b)
  | FReturn e => match e with Some e => validate_expr s e | None => Accepted end
  end.
Definition fvalidate_module (s : annot) (m : list fstmt) : verdict :=
  fold_right (fun a r => and_then (fvalidate_stmt s a) r) Accepted m.

(** io_visitor.cc:47-57, ast_visitor.cc:95-101, 125-132, 204-211, 291-298 *)
Fixpoint fio_stmt (t : fstmt) (s : io) : option io :=
  match t with
  | FAssign id x e => match io_expr e s with Some s' => io_define id x s' | None => None end
  | FExpr e => io_expr e s
  | FIf c t f | FWhile c t f =>
      match io_expr c s with
      | Some s' => match visits fio_stmt t s' with Some s'' => visits fio_stmt f s'' | None => None end
      | None => None
      end
  | FDefine _ ps b =>
      match visits io_expr (map parameter ps) s with
      | Some s' => visits fio_stmt b s'
      | None => None
      end
  | FReturn e => visit_returned io_expr e s
  end.

(** io_visitor.cc:89-100 *)
Definition fio_module (m : list fstmt) : option io :=
  match visits fio_stmt m io_empty with
  | Some s => if Nat.eqb (length (output_id_by_name s)) (length (outputs s)) then Some s else None
  | None => None
  end.

(** execute_visitor.cc:102-143; ast_visitor.cc:95-101, 204-211 *)
Fixpoint fexec_stmt (t : fstmt) (s : exec A) : option (exec A) :=
  match t with
  | FAssign v x e => exec_stmt exec_operations (Assign v x e) s
  | FExpr e => exec_expr exec_operations e s
  | FIf _ _ _ | FWhile _ _ _ => Some s
  | FDefine _ ps b =>
      match visits (exec_expr exec_operations) (map parameter ps) s with
      | Some s1 => visits fexec_stmt b s1
      | None => None
      end
  | FReturn e => visit_returned (exec_expr exec_operations) e s
  end.

(** execute_visitor.cc:205-214 *)
Definition fexec_module (m : list fstmt) (s : exec A) : option (exec A) :=
  match fio_module m with
  | Some r => visits fexec_stmt m (set_outs s (outputs r))
  | None => None
  end.

(** interpreter.cc:255-277, 28-45 *)
Definition fcall_annotate (m : list fstmt) (l : list (source A)) (i : interp A) : outcome A :=
  match add_global_symbols (source_types l) (annotator i) with
  | Some s =>
      match visits fannotate_stmt m s with
      | Some s' => Done {| annotator := s'; back_end := back_end i |}
      | None => Broken
      end
  | None => Broken
  end.

(** interpreter.cc:300-400 *)
Definition fcall_validate (m : list fstmt) (l : list (source A)) (i : interp A) : outcome A :=
  match fcall_annotate m l i with
  | Done i' =>
      match fvalidate_module (annotator i') m with
      | Accepted => Done i'
      | Rejected p => Error p i'
      | Failed => Broken
      end
  | o => o
  end.

(** interpreter.cc:415-446 *)
Definition fcall_execute (m : list fstmt) (l : list (source A)) (names : list string) (i : interp A) : outcome A :=
  match fcall_validate m l i with
  | Done i' =>
      match set_data_source_symbols (source_values l) (back_end i') with
      | Some s =>
          match fexec_module m (set_data_sync_symbols names s) with
          | Some s' => Done {| annotator := annotator i'; back_end := s' |}
          | None => Broken
          end
      | None => Broken
      end
  | o => o
  end.
End Visitors.
End Function.
Arguments fstmt A : clear implicits.
