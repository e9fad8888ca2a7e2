(** * Annotation and validation of modules

    Models [language/ast/visitor/annotate_visitor.cc] and
    [language/ast/visitor/validate_visitor.cc].  Expression types are those of [FlagModel].
    [None] is a failed assertion.  The positions in the messages are left out; a problem names
    the vertex instead. *)

From Coq Require Import String List Bool Arith NArith.
From Verif Require Import AstModel SymbolModel FlagModel.
Import ListNotations.

Section Annotate.
Context {A : Type}.

(** The parameters of an operation, and what [expression_type(0, types)] returns; operation.h,
    operations.cc:39-53 *)
Record aop := {
  signature : operation;
  result_type : list expression_type -> option expression_type
}.
Variable operations : string -> option aop.

(** annotate_visitor.cc:114-140: the type of a number or a string *)
Variable const_type : A -> expression_type.

(** annotate_visitor.h; [types_of] and [operation_of] are the expression types and the operation
    of each vertex (expression_vertex.cc:41-58, operation_vertex.cc:34-45) *)
Record annot := {
  types_stack : list expression_type;     (* the top is the first element *)
  type_symbols : table expression_type;
  types_of : nat -> list expression_type;
  operation_of : nat -> option aop
}.

Definition push_type (t : expression_type) (s : annot) : annot :=
  {| types_stack := t :: types_stack s; type_symbols := type_symbols s; types_of := types_of s;
     operation_of := operation_of s |}.
Definition set_types (v : nat) (ts : list expression_type) (s : annot) : annot :=
  {| types_stack := types_stack s; type_symbols := type_symbols s;
     types_of := fun w => if w =? v then ts else types_of s w; operation_of := operation_of s |}.
Definition set_operation (v : nat) (o : aop) (s : annot) : annot :=
  {| types_stack := types_stack s; type_symbols := type_symbols s; types_of := types_of s;
     operation_of := fun w => if w =? v then Some o else operation_of s w |}.
Definition set_types_stack (l : list expression_type) (s : annot) : annot :=
  {| types_stack := l; type_symbols := type_symbols s; types_of := types_of s;
     operation_of := operation_of s |}.
Definition set_type_symbols (t : table expression_type) (s : annot) : annot :=
  {| types_stack := types_stack s; type_symbols := t; types_of := types_of s;
     operation_of := operation_of s |}.

(** annotate_visitor.cc:17-28 *)
Definition annot_initial : annot :=
  {| types_stack := []; type_symbols := push_scope []; types_of := fun _ => [];
     operation_of := fun _ => None |}.

(** annotate_visitor.cc:72-85; the argument is the only scope of the table passed in, or empty *)
Definition add_global_symbols (pairs : scope expression_type) (s : annot) : option annot :=
  visits
    (fun p s =>
       match add_value (type_symbols s) (fst p) (snd p) with
       | Some t => Some (set_type_symbols t s)
       | None => None
       end) pairs s.

(** annotate_visitor.cc:152-158: the types are taken from the stack, the last one first *)
Fixpoint pop_types (n : nat) (s : annot) : option (list expression_type * annot) :=
  match n with
  | O => Some ([], s)
  | S n' =>
      match types_stack s with
      | [] => None
      | t :: l =>
          match pop_types n' (set_types_stack l s) with
          | Some (ts, s') => Some (t :: ts, s')
          | None => None
          end
      end
  end.

(** annotate_visitor.cc:114-140, 198-215: a vertex without children.  [types_of] must
    be empty. *)
Definition annotate_leaf (v : nat) (t : expression_type) (s : annot) : option annot :=
  match types_of s v with [] => Some (set_types v [t] (push_type t s)) | _ => None end.

(** annotate_visitor.cc:203-208 *)
Definition name_type (x : string) (s : annot) : expression_type :=
  match value (type_symbols s) x with Some t => t | None => default_expression_type end.

(** annotate_visitor.cc:143-215; subscripts and attributes are visited by the defaults of
    ast_visitor.cc:66-71, 262-268 *)
Fixpoint annotate_expr (e : expr A) (s : annot) : option annot :=
  match e with
  | Name v x => annotate_leaf v (name_type x s) s
  | Const v c => annotate_leaf v (const_type c) s
  | Operation v f args =>
      match types_of s v with
      | [] =>
          match visits annotate_expr args s with
          | Some s1 =>
              match pop_types (length args) s1 with
              | Some (ts, s2) =>
                  match operations f with
                  | Some o =>
                      match operation_of s2 v with
                      | None =>
                          let s3 := set_operation v o s2 in
                          match types_of s3 v with
                          | [] =>
                              match
                                (if length args =? length (op_parameters (signature o))
                                 then result_type o ts else Some default_expression_type)
                              with
                              | Some t => Some (set_types v [t] (push_type t s3))
                              | None => None
                              end
                          | _ => None
                          end
                      | Some _ => None
                      end
                  | None =>
                      Some (set_types v [default_expression_type]
                        (push_type default_expression_type s2))
                  end
              | None => None
              end
          | None => None
          end
      | _ => None
      end
  | Subscript _ e sel =>
      match annotate_expr e s with Some s' => annotate_expr sel s' | None => None end
  | Attribute _ e _ => annotate_expr e s
  end.

(** annotate_visitor.cc:88-111; ast_visitor.cc:125-132, 291-298 *)
Fixpoint annotate_stmt (t : stmt A) (s : annot) : option annot :=
  match t with
  | Assign v x e =>
      match annotate_expr e s with
      | Some s1 =>
          match types_stack s1 with
          | [] => None
          | t :: l =>
              match add_value (type_symbols s1) x t with
              | Some tb =>
                  let s2 := set_types_stack l (set_type_symbols tb s1) in
                  match types_of s2 v, types_of s2 (expr_id e) with
                  | [], [t'] => Some (set_types v [t'] s2)
                  | _, _ => None
                  end
              | None => None
              end
          end
      | None => None
      end
  | Expr e => annotate_expr e s
  | If c t f | While c t f =>
      match annotate_expr c s with
      | Some s1 =>
          match visits annotate_stmt t s1 with Some s2 => visits annotate_stmt f s2 | None => None end
      | None => None
      end
  end.

(** annotate_visitor.cc:218-222 *)
Definition annotate_module (m : list (stmt A)) (s : annot) : option annot := visits annotate_stmt m s.

(** ** Validation *)

Inductive problem :=
| UndefinedIdentifier (x : string) (v : nat)
| UndefinedOperation (f : string) (v : nat)
| WrongNumberOfArguments (f : string) (required provided : nat) (v : nat)
| WrongTypeOfArgument (f : string) (argument : nat) (v : nat).

(** What the visit ends with: nothing, an exception or a failed assertion. *)
Inductive verdict := Accepted | Rejected (p : problem) | Failed.

Definition and_then (v w : verdict) : verdict := match v with Accepted => w | _ => v end.

Variable s : annot.

(** validate_visitor.cc:20-33 *)
Definition validate_name (v : nat) (x : string) : verdict :=
  match types_of s v with
  | [t] => if et_defined t then Accepted else Rejected (UndefinedIdentifier x v)
  | _ => Failed
  end.

(** validate_visitor.cc:67-88: the loop from argument [i] (the first one is 1) on *)
Fixpoint validate_arguments (f : string) (v : nat) (i : nat) (args : list (expr A))
  (params : list (list expression_type)) : verdict :=
  match args, params with
  | a :: args', p :: params' =>
      if ets_is_satisfied_by p (types_of s (expr_id a))
      then validate_arguments f v (S i) args' params'
      else Rejected (WrongTypeOfArgument f i v)
  | _, _ => Accepted
  end.

(** validate_visitor.cc:36-89 *)
Fixpoint validate_expr (e : expr A) : verdict :=
  match e with
  | Name v x => validate_name v x
  | Const _ _ => Accepted
  | Operation v f args =>
      and_then (fold_right (fun a r => and_then (validate_expr a) r) Accepted args)
        match operation_of s v with
        | None => Rejected (UndefinedOperation f v)
        | Some o =>
            if negb (length args =? length (op_parameters (signature o)))
            then Rejected (WrongNumberOfArguments f (length (op_parameters (signature o))) (length args) v)
            else validate_arguments f v 1 args (op_parameters (signature o))
        end
  | Subscript _ e sel => and_then (validate_expr e) (validate_expr sel)
  | Attribute _ e _ => validate_expr e
  end.

(** ast_visitor.cc:50-56, 125-132, 291-298 *)
Fixpoint validate_stmt (t : stmt A) : verdict :=
  match t with
  | Assign v x e => and_then (validate_expr e) (validate_name v x)
  | Expr e => validate_expr e
  | If c t f | While c t f =>
      and_then (validate_expr c)
        (and_then (fold_right (fun a r => and_then (validate_stmt a) r) Accepted t)
                  (fold_right (fun a r => and_then (validate_stmt a) r) Accepted f))
  end.
Definition validate_module (m : list (stmt A)) : verdict :=
  fold_right (fun a r => and_then (validate_stmt a) r) Accepted m.
End Annotate.

(** ** The operations of the library *)
Local Open Scope string_scope.

(** operation.cc:99-111: the default of [Operation]; the operation must have no results *)
Definition default_result_type (op : operation) (types : list expression_type) : option expression_type :=
  match op_results op with [] => Some default_expression_type | _ => None end.

(** read.cc:63-82 *)
Definition string_type : expression_type :=
  {| et_data := dt_flags DT_CONSTANT; et_value := vt_flags VT_STRING |}.
Definition op_read : operation :=
  {| op_parameters := [[string_type]];
     op_results := [{| et_data := dt_flags DT_STATIC_FIELD; et_value := vts_number |}] |}.

(** write.cc:59-83 *)
Definition op_write : operation :=
  {| op_parameters := [[number_type]; [string_type]; [string_type]]; op_results := [] |}.

(** std/operations.cc:31-45, core/operations.cc:39-53; abs.cc:99-104, add.cc:44-49,
    int32.cc:40-45, read.cc:85-96 *)
Definition standard_aop (op : operation) : aop :=
  {| signature := op; result_type := standard_expression_type op 0 |}.
Definition library (f : string) : option aop :=
  if String.eqb f "abs" then Some (standard_aop op_abs)
  else if String.eqb f "add" then Some (standard_aop op_add)
  else if String.eqb f "int32" then Some (standard_aop op_int32)
  else if String.eqb f "read" then
    Some {| signature := op_read; result_type := fun _ => nth_error (op_results op_read) 0 |}
  else if String.eqb f "write" then
    Some {| signature := op_write; result_type := default_result_type op_write |}
  else None.
