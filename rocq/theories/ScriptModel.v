(** * From script to syntax tree

    Models [language/script/algebra_parser.cc], which turns Python's syntax tree of a script into
    the text of an XML document, and [language/ast/xml/xml_parser.cc] with the schema
    [language/ast/xml/syntax_tree.xsd], which turns such a text into a tree of vertices.

    Python's parser is not modelled: the model starts at its result, the tree of
    [Python-ast.h] (Python 2.7).  What the XML library does is in [XmlModel] and [DecimalModel].
    Simplifications: a document that is not well formed is refused as a whole, before the
    handlers of its elements are called; white space between elements is refused, as the
    writer leaves none; contexts of expressions, which are not looked at, are left out. *)

From Coq Require Import String Ascii List Bool ZArith SpecFloat.
From Verif Require Import IntsModel FloatModel StringModel XmlModel DecimalModel.
Import ListNotations.
Open Scope Z_scope.

(** ** Python's syntax tree *)

Record pos := At { line : Z; col : Z }.

(** The object of a [Num]: [int], [long], [float], [complex] *)
Inductive py_number := PyInt (z : Z) | PyLong (z : Z) | PyFloat (x : spec_float) | PyComplex.

Inductive unaryop := Invert | Not | UAdd | USub.
Inductive operator :=
  Add | Sub | Mult | Div | Mod | Pow | LShift | RShift | BitOr | BitXor | BitAnd | FloorDiv.
Inductive boolop := And | Or.
Inductive cmpop := Eq | NotEq | Lt | LtE | Gt | GtE | Is | IsNot | In | NotIn.

(** Expressions and statements that are not supported *)
Inductive other_expr :=
  IfExp | Lambda | Dict | DictComp | GeneratorExp | Yield | Repr | List_ | ListComp | Set_ |
  SetComp | Tuple.
Inductive other_stmt :=
  Print_ | Break | Continue | Assert | AugAssign | Global | Pass | ClassDef | Delete | For |
  With | Raise | TryExcept | TryFinally | Import_ | ImportFrom | Exec.

Inductive py_expr :=
| PName (p : pos) (id : text)
| PNum (p : pos) (n : py_number)
| PStr (p : pos) (s : text)
| PUnicode (p : pos)                                 (* [Str] of a [unicode] object *)
| PCall (p : pos) (f : py_expr) (args : option (list py_expr))  (* [None]: null pointer *)
    (keywords : list (text * py_expr)) (starargs kwargs : option py_expr)
| PUnaryOp (p : pos) (op : unaryop) (operand : py_expr)
| PBinOp (p : pos) (left : py_expr) (op : operator) (right : py_expr)
| PBoolOp (p : pos) (op : boolop) (values : list py_expr)
| PCompare (p : pos) (left : py_expr) (ops : list cmpop) (comparators : list py_expr)
| PSubscript (p : pos) (e : py_expr) (index : option py_expr)  (* [None]: not an [Index] *)
| PAttribute (p : pos) (e : py_expr) (attr : text)
| POther (p : pos) (kind : other_expr).

(** [arguments_ty] *)
Record arguments_ty := {
  args : list py_expr; vararg : option text; kwarg : option text; defaults : list py_expr }.

Inductive py_stmt :=
| SExpr (p : pos) (e : py_expr)
| SAssign (p : pos) (targets : list py_expr) (e : py_expr)
| SIf (p : pos) (test : py_expr) (body orelse : list py_stmt)
| SWhile (p : pos) (test : py_expr) (body orelse : list py_stmt)
| SFunctionDef (p : pos) (name : text) (a : arguments_ty) (body : list py_stmt)
    (decorators : list py_expr)
| SReturn (p : pos) (e : option py_expr)
| SOther (p : pos) (kind : other_stmt).

Definition expr_pos (e : py_expr) : pos :=
  match e with
  | PName p _ | PNum p _ | PStr p _ | PUnicode p | PCall p _ _ _ _ _ | PUnaryOp p _ _
  | PBinOp p _ _ _ | PBoolOp p _ _ | PCompare p _ _ _ | PSubscript p _ _ | PAttribute p _ _
  | POther p _ => p
  end.
Definition stmt_pos (s : py_stmt) : pos :=
  match s with
  | SExpr p _ | SAssign p _ _ | SIf p _ _ _ | SWhile p _ _ _ | SFunctionDef p _ _ _ _
  | SReturn p _ | SOther p _ => p
  end.

(** ** Writing the XML *)

(** The text that has been added; an exception [UnsupportedLanguageConstruct]; a failed
    assertion *)
Inductive written :=
| Text (t : text)
| Unsupported (kind : string) (p : pos)
| Asserts.
Definition str (s : string) : written := Text (lit s).
Definition and_then (a b : written) : written :=
  match a with
  | Text s => match b with Text t => Text (s ++ t)%list | _ => b end
  | _ => a
  end.
Infix "+++" := and_then (at level 60, right associativity).

(** [std::string += char const*]: up to the first null character *)
Fixpoint c_string (t : text) : text :=
  match t with
  | [] => []
  | c :: t' => if Ascii.eqb c "000"%char then [] else c :: c_string t'
  end.

(** algebra_parser.cc:50-73 *)
Definition write_identifier_node (id : text) : written :=
  str "<Name>" +++ Text (c_string id) +++ str "</Name>".

(** [PyLong_AsLongLong]: -1, and an exception that nobody looks at, if the number does not fit *)
Definition as_long_long (z : Z) : Z := if (- 2 ^ 63 <=? z) && (z <=? 2 ^ 63 - 1) then z else -1.

(** algebra_parser.cc:76-130; [long] has 64 bits *)
Definition write_number_node (n : py_number) : written :=
  str "<Number>" +++
  match n with
  | PyInt z =>
      str "<Integer><Size>" +++ Text (show_int 64) +++ str "</Size><Value>" +++
      Text (show_int z) +++ str "</Value></Integer>"
  | PyLong z =>
      str "<Integer><Size>" +++ Text (show_int 64) +++ str "</Size><Value>" +++
      Text (show_int (as_long_long z)) +++ str "</Value></Integer>"
  | PyFloat x =>
      str "<Float><Size>" +++ Text (show_int 64) +++ str "</Size><Value>" +++
      Text (show_double x) +++ str "</Value></Float>"
  | PyComplex => Asserts
  end +++
  str "</Number>".

(** algebra_parser.cc:133-149 *)
Definition write_string_node (s : text) : written :=
  match s with
  | [] => str "<String/>"
  | _ => str "<String>" +++ Text (c_string s) +++ str "</String>"
  end.

(** algebra_parser.cc:200-233 *)
Definition unary_name (op : unaryop) : string :=
  match op with
  | Invert => "Invert" | Not => "Not" | UAdd => "UnaryAdd" | USub => "UnarySub"
  end.
(** algebra_parser.cc:236-303 *)
Definition binary_name (op : operator) : string :=
  match op with
  | Add => "add" | Sub => "Sub" | Mult => "Mult" | Div => "Div" | Mod => "Mod" | Pow => "Pow"
  | LShift => "LShift" | RShift => "RShift" | BitOr => "BitOr" | BitXor => "BitXor"
  | BitAnd => "BitAnd" | FloorDiv => "FloorDiv"
  end.
(** algebra_parser.cc:306-329 *)
Definition boolean_name (op : boolop) : string :=
  match op with And => "And" | Or => "Or" end.
(** algebra_parser.cc:332-384 *)
Definition comparison_name (op : cmpop) : option string :=
  match op with
  | Eq => Some "Eq" | NotEq => Some "NotEq" | Lt => Some "Lt" | LtE => Some "LtE"
  | Gt => Some "Gt" | GtE => Some "GtE"
  | _ => None
  end%string.

(** algebra_parser.cc:499-554 *)
Definition expr_construct (k : other_expr) : string :=
  match k with
  | IfExp => "if" | Lambda => "lambda" | Dict => "dictionary"
  | DictComp => "dictionary comprehension" | GeneratorExp => "generator" | Yield => "yield"
  | Repr => "repr" | List_ => "list" | ListComp => "list comprehension" | Set_ => "set"
  | SetComp => "set comprehension" | Tuple => "tuple"
  end.
(** algebra_parser.cc:764-857 *)
Definition stmt_construct (k : other_stmt) : string :=
  match k with
  | Print_ => "print" | Break => "break" | Continue => "continue" | Assert => "assert"
  | AugAssign => "augmented assign" | Global => "global" | Pass => "pass"
  | ClassDef => "define class" | Delete => "delete" | For => "for" | With => "with"
  | Raise => "raise" | TryExcept => "try/except" | TryFinally => "try/finally"
  | Import_ => "import" | ImportFrom => "import from" | Exec => "exec"
  end.

(** [<Expression line="%1%" col="%2%">] and [<Statement line="%1%" col="%2%">];
    algebra_parser.cc:445-451, 722-731 *)
Definition open_at (name : string) (p : pos) : written :=
  str "<" +++ str name +++ str " line=""" +++ Text (show_int (line p)) +++ str """ col=""" +++
  Text (show_int (col p)) +++ str """>".

Fixpoint concat (l : list written) : written :=
  match l with [] => Text [] | w :: l' => w +++ concat l' end.

(** algebra_parser.cc:152-171 *)
Definition write_expressions_node {X} (write : X -> written) (l : option (list X)) : written :=
  match l with
  | None => str "<Expressions/>"
  | Some [] => Asserts
  | Some l => str "<Expressions>" +++ concat (map write l) +++ str "</Expressions>"
  end.

(** algebra_parser.cc:619-625, 681-702 *)
Definition write_expression_nodes {X} (write : X -> written) (l : list X) : written :=
  match l with
  | [] => str "<Expressions/>"
  | _ => str "<Expressions>" +++ concat (map write l) +++ str "</Expressions>"
  end.

(** algebra_parser.cc:439-558; function calls 174-197, operators 200-384, slices 387-409,
    subscripts 412-423, attributes 426-436 *)
Fixpoint write_expression_node (e : py_expr) : written :=
  open_at "Expression" (expr_pos e) +++
  match e with
  | PName _ id => write_identifier_node id
  | PNum _ n => write_number_node n
  | PStr _ s => write_string_node s
  | PUnicode _ => Asserts
  | PCall _ f args keywords starargs kwargs =>
      match keywords, starargs, kwargs with
      | [], None, None =>
          str "<FunctionCall>" +++
          match f with PName _ id => write_identifier_node id | _ => Asserts end +++
          write_expressions_node write_expression_node args +++
          str "</FunctionCall>"
      | _, _, _ => Asserts
      end
  | PUnaryOp _ op operand =>
      str "<Operator><Name>" +++ str (unary_name op) +++ str "</Name><Expressions>" +++
      write_expression_node operand +++ str "</Expressions></Operator>"
  | PBinOp _ l op r =>
      str "<Operator><Name>" +++ str (binary_name op) +++ str "</Name><Expressions>" +++
      write_expression_node l +++ write_expression_node r +++ str "</Expressions></Operator>"
  | PBoolOp _ op values =>
      str "<Operator><Name>" +++ str (boolean_name op) +++ str "</Name>" +++
      write_expressions_node write_expression_node (Some values) +++ str "</Operator>"
  | PCompare _ l ops comparators =>
      match ops, comparators with
      | [op], [r] =>
          str "<Operator><Name>" +++
          match comparison_name op with Some n => str n | None => Asserts end +++
          str "</Name><Expressions>" +++ write_expression_node l +++ write_expression_node r +++
          str "</Expressions></Operator>"
      | _, _ => Asserts
      end
  | PSubscript _ e index =>
      str "<Subscript>" +++ write_expression_node e +++
      match index with Some i => write_expression_node i | None => Asserts end +++
      str "</Subscript>"
  | PAttribute _ e name =>
      str "<Attribute>" +++ write_expression_node e +++ write_identifier_node name +++
      str "</Attribute>"
  | POther p k => Unsupported (expr_construct k) p
  end +++
  str "</Expression>".

(** algebra_parser.cc:705-865 *)
Definition write_statement_nodes (write : py_stmt -> written) (l : list py_stmt) : written :=
  match l with
  | [] => str "<Statements/>"
  | _ => str "<Statements>" +++ concat (map write l) +++ str "</Statements>"
  end.

(** One statement; assignments algebra_parser.cc:570-588, if and while 591-616, function
    definitions 628-641, return 644-656.  Decorators, default values and the names of further
    arguments are not looked at. *)
Fixpoint write_statement (s : py_stmt) : written :=
  open_at "Statement" (stmt_pos s) +++
  match s with
  | SExpr _ e => write_expression_node e
  | SAssign _ targets e =>
      match targets with
      | [PName _ _ as target] =>
          str "<Assignment>" +++ write_expression_node target +++ write_expression_node e +++
          str "</Assignment>"
      | _ => Asserts
      end
  | SIf _ test body orelse =>
      str "<If>" +++ write_expression_node test +++ write_statement_nodes write_statement body +++
      write_statement_nodes write_statement orelse +++ str "</If>"
  | SWhile _ test body orelse =>
      str "<While>" +++ write_expression_node test +++
      write_statement_nodes write_statement body +++
      write_statement_nodes write_statement orelse +++ str "</While>"
  | SFunctionDef _ name a body _ =>
      str "<FunctionDefinition>" +++ write_identifier_node name +++
      write_expression_nodes write_expression_node (args a) +++
      write_statement_nodes write_statement body +++ str "</FunctionDefinition>"
  | SReturn _ e =>
      match e with
      | None => str "<Return/>"
      | Some e => str "<Return>" +++ write_expression_node e +++ str "</Return>"
      end
  | SOther p k => Unsupported (stmt_construct k) p
  end +++
  str "</Statement>".

(** algebra_parser.cc:868-881; the ampersand first *)
Definition escape (s : text) : text :=
  replace (replace (replace (replace (replace s
    (lit "&") (lit "&amp;")) (lit "<") (lit "&lt;")) (lit ">") (lit "&gt;"))
    (lit """") (lit "&quot;")) (lit "'") (lit "&apos;").

(** algebra_parser.cc:884-924 for a module, and the declaration that 993-1037 put in front *)
Definition write_script (source_name : text) (body : list py_stmt) : written :=
  Text declaration +++ str "<Fern source=""" +++ Text (c_string (escape source_name)) +++
  str """>" +++ write_statement_nodes write_statement body +++ str "</Fern>".

(** ** The tree of vertices: language/ast/core *)

(** [NumberVertex<T>] *)
Inductive number := NumberInt (t : ity) (z : Z) | NumberFloat (f : fmt) (x : spec_float).

Inductive vertex :=
| NameVertex (p : pos) (name : text)
| StringVertex (p : pos) (value : text)
| NumberVertex (p : pos) (value : number)
| FunctionCallVertex (p : pos) (name : text) (expressions : list vertex)
| OperatorVertex (p : pos) (name symbol : text) (expressions : list vertex)
| SubscriptVertex (p : pos) (e selection : vertex)
| AttributeVertex (p : pos) (e : vertex) (member : text).

Inductive statement_vertex :=
| ExpressionVertex (e : vertex)
| AssignmentVertex (p : pos) (target e : vertex)
| IfVertex (p : pos) (condition : vertex) (true_scope false_scope : list statement_vertex)
| WhileVertex (p : pos) (condition : vertex) (true_scope false_scope : list statement_vertex)
| FunctionDefinitionVertex (p : pos) (name : text) (arguments : list vertex)
    (scope : list statement_vertex)
| ReturnVertex (p : pos) (e : option vertex).

Record module_vertex := ModuleVertex { source_name : text; scope : list statement_vertex }.

(** [AstVertex::set_position] *)
Definition set_position (p : pos) (v : vertex) : vertex :=
  match v with
  | NameVertex _ n => NameVertex p n
  | StringVertex _ s => StringVertex p s
  | NumberVertex _ n => NumberVertex p n
  | FunctionCallVertex _ n l => FunctionCallVertex p n l
  | OperatorVertex _ n s l => OperatorVertex p n s l
  | SubscriptVertex _ e s => SubscriptVertex p e s
  | AttributeVertex _ e m => AttributeVertex p e m
  end.

(** operator_vertex.cc:17-22 *)
Definition unary_operator_symbols : list (string * string) :=
  [("Invert", "~"); ("Not", "!"); ("UnaryAdd", "+"); ("UnarySub", "-")]%string.
(** operator_vertex.cc:25-51 *)
Definition binary_operator_symbols : list (string * string) :=
  [("add", "+"); ("Sub", "-"); ("Mult", "*"); ("Div", "/"); ("Mod", "%"); ("Pow", "**");
   ("LShift", "<<"); ("RShift", ">>"); ("BitOr", "|"); ("BitXor", "^"); ("BitAnd", "&");
   ("FloorDiv", "//"); ("And", "and"); ("Or", "or"); ("Eq", "=="); ("NotEq", "!=");
   ("Lt", "<"); ("LtE", "<="); ("Gt", ">"); ("GtE", ">=")]%string.
(** operator_vertex.cc:60-68; a failed assertion is [None] *)
Definition name_to_symbol (name : text) (nr_operands : nat) : option text :=
  let symbols :=
    match nr_operands with
    | 1%nat => unary_operator_symbols
    | 2%nat => binary_operator_symbols
    | _ => []
    end in
  match find (fun entry => is (fst entry) name) symbols with
  | Some (_, s) => Some (lit s)
  | None => None
  end.

(** ** Reading the XML *)

(** An exception [ParseError]; a failed assertion *)
Inductive parsed (A : Type) := Parsed (a : A) | ParseError | Fails.
Arguments Parsed {A} a.
Arguments ParseError {A}.
Arguments Fails {A}.
Definition bind {A B} (r : parsed A) (f : A -> parsed B) : parsed B :=
  match r with Parsed a => f a | ParseError => ParseError | Fails => Fails end.
Notation "'let*' a := r 'in' b" := (bind r (fun a => b)) (at level 200, a pattern, right associativity).
Definition valid {A} (r : option A) : parsed A :=
  match r with Some a => Parsed a | None => ParseError end.
Definition assert_ (b : bool) : parsed unit := if b then Parsed tt else Fails.

Section Each.
Context {X A : Type}.
Variable read : X -> parsed A.
Fixpoint each (l : list X) : parsed (list A) :=
  match l with
  | [] => Parsed []
  | x :: l' => let* a := read x in let* r := each l' in Parsed (a :: r)
  end.
End Each.

(** The value of an element with simple content; it has no attributes *)
Definition simple (name : string) (x : xml) : parsed text :=
  match x with
  | Element n [] [] => if is name n then Parsed [] else ParseError
  | Element n [] [Chars t] => if is name n then Parsed t else ParseError
  | _ => ParseError
  end.

(** The attributes [line] and [col], and no others; [int] members, xml_parser.cc:402-414,
    985-1000, 488-491 *)
Definition attribute (name : string) (l : list (text * text)) : option text :=
  match find (fun a => is name (fst a)) l with Some (_, v) => Some v | None => None end.
Definition to_int (z : Z) : Z := (z + 2 ^ 31) mod 2 ^ 32 - 2 ^ 31.
Definition position (l : list (text * text)) : parsed pos :=
  match l, attribute "line" l, attribute "col" l with
  | [_; _], Some a, Some b =>
      let* a := valid (read_non_negative a) in
      let* b := valid (read_non_negative b) in
      Parsed (At (to_int a) (to_int b))
  | _, _, _ => ParseError
  end.

(** xml_parser.cc:534-599 [Integer_pimpl] *)
Definition wrapped (t : ity) (z : Z) : number := NumberInt t (conv t z).
Definition post_integer (size value : Z) : parsed number :=
  if size =? 8 then Parsed (wrapped S8 value)
  else if size =? 16 then Parsed (wrapped S16 value)
  else if size =? 32 then Parsed (wrapped S32 value)
  else if size =? 64 then Parsed (wrapped S64 value)
  else Fails.
(** xml_parser.cc:602-667 [UnsignedInteger_pimpl] *)
Definition post_unsigned_integer (size value : Z) : parsed number :=
  if size =? 8 then Parsed (wrapped U8 value)
  else if size =? 16 then Parsed (wrapped U16 value)
  else if size =? 32 then Parsed (wrapped U32 value)
  else if size =? 64 then Parsed (wrapped U64 value)
  else Fails.
(** xml_parser.cc:671-727 [Float_pimpl] *)
Definition post_float (size : Z) (value : spec_float) : parsed number :=
  if size =? 32 then Parsed (NumberFloat Single (to_format Single (NFloat Double value)))
  else if size =? 64 then Parsed (NumberFloat Double value)
  else Fails.

(** xml_parser.cc:730-772 [Number_pimpl]; the types of the values are those of
    syntax_tree.xsd:189-234 and xml_parser.cc:1112-1129 *)
Definition read_number (x : xml) : parsed number :=
  match x with
  | Element k [] [s; v] =>
      if is "Integer" k then
        let* s := simple "Size" s in let* s := valid (read_positive s) in
        let* v := simple "Value" v in let* v := valid (read_int v) in
        post_integer s v
      else if is "UnsignedInteger" k then
        let* s := simple "Size" s in let* s := valid (read_positive s) in
        let* v := simple "Value" v in let* v := valid (read_non_negative v) in
        post_unsigned_integer s v
      else if is "Float" k then
        let* s := simple "Size" s in let* s := valid (read_positive s) in
        let* v := simple "Value" v in let* v := valid (read_double v) in
        post_float s v
      else ParseError
  | _ => ParseError
  end.

(** xml_parser.cc:497-531 [Expressions_pimpl]; syntax_tree.xsd:129-137 *)
Definition read_expressions (read : xml -> parsed vertex) (x : xml) : parsed (list vertex) :=
  match x with
  | Element n [] l => if is "Expressions" n then each read l else ParseError
  | _ => ParseError
  end.

(** xml_parser.cc:828-878 [Operator_pimpl]: the vertex looks its symbol up *)
Definition post_operator (p : pos) (name : text) (l : list vertex) : parsed vertex :=
  match name_to_symbol name (length l) with
  | Some s => Parsed (OperatorVertex p name s l)
  | None => Fails
  end.

(** xml_parser.cc:978-1092 [Expression_pimpl]; function calls 775-825, operators 828-878,
    subscripts 881-925, attributes 928-975; syntax_tree.xsd:139-187, 236-256.
    [subscripts] and [attributes] are the sizes of the stacks of [Subscript_pimpl] and
    [Attribute_pimpl]: the elements of that kind around this one. *)
Fixpoint read_expression (subscripts attributes : nat) (x : xml) : parsed vertex :=
  match x with
  | Element n l [Element k m content] =>
      if is "Expression" n then
      let* p := position l in
      match m with
      | _ :: _ => ParseError
      | [] =>
      if is "Name" k then
        let* name := simple "Name" (Element k m content) in
        Parsed (NameVertex p name)
      else if is "Subscript" k then
        match content with
        | [e; s] =>
            let* e := read_expression (S subscripts) attributes e in
            let* _ := assert_ (S subscripts =? 1)%nat in
            let* s := read_expression (S subscripts) attributes s in
            let* _ := assert_ (S subscripts =? 1)%nat in
            Parsed (SubscriptVertex p e s)
        | _ => ParseError
        end
      else if is "Attribute" k then
        match content with
        | [e; a] =>
            let* e := read_expression subscripts (S attributes) e in
            let* _ := assert_ (S attributes =? 1)%nat in
            let* a := simple "Name" a in
            let* _ := assert_ (S attributes =? 1)%nat in
            Parsed (AttributeVertex p e a)
        | _ => ParseError
        end
      else if is "String" k then
        let* s := simple "String" (Element k m content) in
        Parsed (StringVertex p s)
      else if is "Number" k then
        match content with
        | [x] => let* v := read_number x in Parsed (NumberVertex p v)
        | _ => ParseError
        end
      else if is "FunctionCall" k then
        match content with
        | [name; l] =>
            let* name := simple "Name" name in
            let* l := read_expressions (read_expression subscripts attributes) l in
            Parsed (FunctionCallVertex p name l)
        | _ => ParseError
        end
      else if is "Operator" k then
        match content with
        | [name; l] =>
            let* name := simple "Name" name in
            let* l := read_expressions (read_expression subscripts attributes) l in
            post_operator p name l
        | _ => ParseError
        end
      else ParseError
      end
      else ParseError
  | _ => ParseError
  end.

(** xml_parser.cc:354-387 [Statements_pimpl]; syntax_tree.xsd:22-31 *)
Definition read_statements (read : xml -> parsed statement_vertex) (x : xml)
  : parsed (list statement_vertex) :=
  match x with
  | Element n [] l => if is "Statements" n then each read l else ParseError
  | _ => ParseError
  end.

Definition nonempty {X} (l : list X) : bool := match l with [] => false | _ => true end.

(** xml_parser.cc:390-494 [Statement_pimpl]; assignments 60-99, if 130-186, while 189-246,
    function definitions 249-308, return 311-351; syntax_tree.xsd:33-127 *)
Fixpoint read_statement (x : xml) : parsed statement_vertex :=
  match x with
  | Element n l [Element k m content] =>
      if is "Statement" n then
      let* p := position l in
      if is "Expression" k then
        let* e := read_expression 0 0 (Element k m content) in
        Parsed (ExpressionVertex (set_position p e))
      else
      match m with
      | _ :: _ => ParseError
      | [] =>
      if is "Assignment" k then
        match content with
        | [t; e] =>
            let* t := read_expression 0 0 t in
            let* e := read_expression 0 0 e in
            Parsed (AssignmentVertex p t e)
        | _ => ParseError
        end
      else if is "If" k then
        match content with
        | [c; t; f] =>
            let* c := read_expression 0 0 c in
            let* t := read_statements read_statement t in
            let* _ := assert_ (nonempty t) in
            let* f := read_statements read_statement f in
            Parsed (IfVertex p c t f)
        | _ => ParseError
        end
      else if is "While" k then
        match content with
        | [c; t; f] =>
            let* c := read_expression 0 0 c in
            let* t := read_statements read_statement t in
            let* _ := assert_ (nonempty t) in
            let* f := read_statements read_statement f in
            Parsed (WhileVertex p c t f)
        | _ => ParseError
        end
      else if is "FunctionDefinition" k then
        match content with
        | [name; l; b] =>
            let* name := simple "Name" name in
            let* l := read_expressions (read_expression 0 0) l in
            let* b := read_statements read_statement b in
            let* _ := assert_ (nonempty b) in
            Parsed (FunctionDefinitionVertex p name l b)
        | _ => ParseError
        end
      else if is "Return" k then
        match content with
        | [] => Parsed (ReturnVertex p None)
        | [e] => let* e := read_expression 0 0 e in Parsed (ReturnVertex p (Some e))
        | _ => ParseError
        end
      else ParseError
      end
      else ParseError
  | _ => ParseError
  end.

(** xml_parser.cc:20-57 [Fern_pimpl]; syntax_tree.xsd:12-20; xml_parser.cc:1102-1219 *)
Definition read_module (x : xml) : parsed module_vertex :=
  match x with
  | Element n [(a, s)] [b] =>
      if is "Fern" n && is "source" a then
        let* b := read_statements read_statement b in
        Parsed (ModuleVertex s b)
      else ParseError
  | _ => ParseError
  end.
Definition parse_xml (t : text) : parsed module_vertex :=
  let* x := valid (document t) in read_module x.

(** What becomes of a script: [AlgebraParser::parse_string] or [parse_file], and
    [XmlParser::parse_string]; as in interpreter.cc:77-86, 148-166 *)
Inductive outcome :=
| Tree (m : module_vertex)
| Rejected (kind : string) (p : pos)   (* UnsupportedLanguageConstruct *)
| Malformed                            (* ParseError *)
| Aborts.                              (* a failed assertion *)
Definition parse_script (source_name : text) (body : list py_stmt) : outcome :=
  match write_script source_name body with
  | Text t =>
      match parse_xml t with
      | Parsed m => Tree m
      | ParseError => Malformed
      | Fails => Aborts
      end
  | Unsupported k p => Rejected k p
  | Asserts => Aborts
  end.
