(** * Printing a syntax tree as a script

    Models [language/ast/visitor/module_visitor.cc], the visitor that prints a tree of vertices as
    a script, with the visits it inherits from [language/ast/visitor/ast_visitor.cc].  The tree is
    that of [ScriptModel].  The text that is printed is the member [_module]; the visits of
    expressions only add to it and are modelled by what they add.  A failed assertion, in a debug
    build, is [None].  [long] has 64 bits. *)

From Coq Require Import String Ascii List Bool ZArith SpecFloat.
From Verif Require Import IntsModel FloatModel StringModel DecimalModel ScriptModel.
Import ListNotations.

Definition newline : ascii := "010"%char.
Definition quote : ascii := """"%char.

Definition add (a b : option text) : option text :=
  match a, b with Some s, Some t => Some (s ++ t) | _, _ => None end.
Infix "+~+" := add (at level 60, right associativity).
Definition word (s : string) : option text := Some (lit s).

Section Printer.

(** whether assertions are compiled; [_tab_size], module_visitor.h:28 *)
Variable debug : bool.
Variable tab_size : nat.

(** [assert(false)] *)
Definition unreachable : option text := if debug then None else Some [].

(** [boost::format("%1%")] of a character *)
Definition character (z : Z) : text := [ascii_of_nat (Z.to_nat (z mod 256))].

(** module_visitor.cc:182-257 *)
Definition show_number (n : number) : text :=
  match n with
  | NumberInt t z =>
      match t with
      | S8 => character z
      | U8 => character z ++ lit "U"
      | S16 | S32 | S64 => show_int z
      | U16 | U32 | U64 => show_int z ++ lit "U"
      end
  | NumberFloat _ x => show_double x
  end.

(** module_visitor.cc:71-77: what is between the brackets *)
Section Separated.
Context {X : Type}.
Variable show : X -> option text.
Fixpoint separated (l : list X) : option text :=
  match l with
  | [] => Some []
  | [x] => show x
  | x :: l' => show x +~+ word ", " +~+ separated l'
  end.
End Separated.

(** module_visitor.cc:66-80 *)
Definition visit_expressions {X} (show : X -> option text) (l : list X) : option text :=
  word "(" +~+ separated show l +~+ word ")".

(** module_visitor.cc:92-125, 145-179 *)
Fixpoint show_vertex (v : vertex) : option text :=
  match v with
  | NameVertex _ x => Some x
  | StringVertex _ s => Some (quote :: s ++ [quote])
  | NumberVertex _ n => Some (show_number n)
  | FunctionCallVertex _ x l => Some x +~+ visit_expressions show_vertex l
  | OperatorVertex _ _ symbol l =>
      match l with
      | [e] => Some symbol +~+ word "(" +~+ show_vertex e +~+ word ")"
      | [e; f] =>
          word "(" +~+ show_vertex e +~+ word ") " +~+ Some symbol +~+ word " (" +~+
          show_vertex f +~+ word ")"
      | _ => unreachable
      end
  | SubscriptVertex _ e s =>
      word "(" +~+ show_vertex e +~+ word ")" +~+ word "[" +~+ show_vertex s +~+ word "]"
  | AttributeVertex _ e m => word "(" +~+ show_vertex e +~+ word ")" +~+ word "." +~+ Some m
  end.

(** module_visitor.cc:46-49 *)
Definition indentation (level : nat) : text := repeat " "%char (level * tab_size).

(** module_visitor.cc:52-63; [printed] is what has been printed *)
Section Statements.
Variable visit : text -> statement_vertex -> option text.
Variable level : nat.
Fixpoint visit_statements (printed : text) (l : list statement_vertex) : option text :=
  match l with
  | [] => Some printed
  | s :: l' =>
      match visit (printed ++ indentation level) s with
      | Some t => visit_statements (if ends_with t [newline] then t else t ++ [newline]) l'
      | None => None
      end
  end.
End Statements.

Definition also (a : option text) (f : text -> option text) : option text :=
  match a with Some t => f t | None => None end.

(** module_visitor.cc:83-89, 260-308, 128-132.  Function definitions and returns are not overridden:
    ast_visitor.cc:95-101, 204-211 and, for the scope of a function, 308-314. *)
Fixpoint visit_statement (level : nat) (printed : text) (s : statement_vertex) : option text :=
  match s with
  | ExpressionVertex e => Some printed +~+ show_vertex e
  | AssignmentVertex _ target e =>
      Some printed +~+ show_vertex target +~+ word " = " +~+ show_vertex e
  | IfVertex _ c t f =>
      also (also (Some printed +~+ word "if " +~+ show_vertex c +~+ word ":" +~+ Some [newline])
        (fun printed => visit_statements (visit_statement (S level)) (S level) printed t))
        (fun printed =>
          match f with
          | [] => Some printed
          | _ => visit_statements (visit_statement (S level)) (S level)
                   (printed ++ indentation level ++ lit "else:" ++ [newline]) f
          end)
  | WhileVertex _ c t f =>
      also (also (Some printed +~+ word "while " +~+ show_vertex c +~+ word ":" +~+ Some [newline])
        (fun printed => visit_statements (visit_statement (S level)) (S level) printed t))
        (fun printed =>
          match f with
          | [] => Some printed
          | _ => visit_statements (visit_statement (S level)) (S level)
                   (printed ++ indentation level ++ lit "else:" ++ [newline]) f
          end)
  | FunctionDefinitionVertex _ _ l b =>
      also (also (Some printed +~+ visit_expressions show_vertex l)
        (fun printed => visit_statements (visit_statement level) level printed b))
        (fun printed => Some printed +~+ unreachable)
  | ReturnVertex _ e =>
      Some printed +~+ match e with Some e => show_vertex e | None => Some [] end +~+ unreachable
  end.

(** module_visitor.cc:135-142, 30-33: what [module()] returns after a visit *)
Definition print_script (m : module_vertex) : option text :=
  visit_statements (visit_statement 0) 0 [] (scope m).

End Printer.
