(** * What the syntax tree of a script has to be *)

From Coq Require Import String Ascii List Bool ZArith SpecFloat.
From Verif Require Import IntsModel FloatModel StringModel DecimalModel ScriptModel.
Import ListNotations.
Open Scope Z_scope.

(** ** Text *)

Definition code (c : ascii) : Z := Z.of_nat (nat_of_ascii c).

(** A text that has the same meaning when it is put between XML tags as it is: ASCII, no
    control characters but tabs and line feeds, no [<], no [&], and no []]>]. *)
Definition plain_char (c : ascii) : Prop :=
  (code c = 9 \/ code c = 10 \/ 32 <= code c < 128) /\ c <> "<"%char /\ c <> "&"%char.
Definition plain_text (t : text) : Prop :=
  Forall plain_char t /\ forall a b, t <> (a ++ lit "]]>" ++ b)%list.

(** A text without control characters *)
Definition printable (t : text) : Prop := Forall (fun c => 32 <= code c < 128) t.

(** A name in a script *)
Definition name_letter (c : ascii) : Prop :=
  65 <= code c <= 90 \/ 97 <= code c <= 122 \/ code c = 95.
Definition identifier (t : text) : Prop :=
  exists c r, t = c :: r /\ name_letter c /\ Forall (fun d => name_letter d \/ 48 <= code d <= 57) r.

(** ** Scripts: what Python's parser promises, and strings that are plain *)

Definition position_ok (p : pos) : Prop := 0 <= line p < 2 ^ 31 /\ 0 <= col p < 2 ^ 31.

Inductive python : py_expr -> Prop :=
| Py_name p x : position_ok p -> identifier x -> python (PName p x)
| Py_int p z : position_ok p -> - 2 ^ 63 <= z < 2 ^ 63 -> python (PNum p (PyInt z))
| Py_long p z : position_ok p -> - 2 ^ 63 <= z < 2 ^ 63 -> python (PNum p (PyLong z))
    (* Python has no such limit: see C68_long_refuted *)
| Py_float p x : position_ok p -> python (PNum p (PyFloat x))
| Py_complex p : position_ok p -> python (PNum p PyComplex)
| Py_string p s : position_ok p -> plain_text s -> python (PStr p s)
| Py_unicode p : position_ok p -> python (PUnicode p)
| Py_call p f l k a b : position_ok p -> python f ->
    (forall l', l = Some l' -> Forall python l') -> python (PCall p f l k a b)
| Py_unary p op e : position_ok p -> python e -> python (PUnaryOp p op e)
| Py_binary p e op f : position_ok p -> python e -> python f -> python (PBinOp p e op f)
| Py_boolean p op l : position_ok p -> Forall python l -> python (PBoolOp p op l)
| Py_compare p e ops l : position_ok p -> python e -> Forall python l ->
    python (PCompare p e ops l)
| Py_subscript p e i : position_ok p -> python e -> (forall f, i = Some f -> python f) ->
    python (PSubscript p e i)
| Py_attribute p e x : position_ok p -> python e -> identifier x -> python (PAttribute p e x)
| Py_other p k : position_ok p -> python (POther p k).

Inductive python_stmt : py_stmt -> Prop :=
| Py_expr p e : position_ok p -> python e -> python_stmt (SExpr p e)
| Py_assign p l e : position_ok p -> Forall python l -> python e -> python_stmt (SAssign p l e)
| Py_if p c t f : position_ok p -> python c -> Forall python_stmt t -> Forall python_stmt f ->
    t <> [] -> python_stmt (SIf p c t f)
| Py_while p c t f : position_ok p -> python c -> Forall python_stmt t ->
    Forall python_stmt f -> t <> [] -> python_stmt (SWhile p c t f)
| Py_def p x a b d : position_ok p -> identifier x -> Forall python (args a) ->
    Forall python_stmt b -> b <> [] -> python_stmt (SFunctionDef p x a b d)
| Py_return p e : position_ok p -> (forall f, e = Some f -> python f) ->
    python_stmt (SReturn p e)
| Py_other_stmt p k : position_ok p -> python_stmt (SOther p k).

(** ** What a script denotes *)

(** Operators: the name and the symbol *)
Definition unary_operator (op : unaryop) : string * string :=
  match op with
  | Invert => ("Invert", "~") | Not => ("Not", "!") | UAdd => ("UnaryAdd", "+")
  | USub => ("UnarySub", "-")
  end%string.
Definition binary_operator (op : operator) : string * string :=
  match op with
  | Add => ("add", "+") | Sub => ("Sub", "-") | Mult => ("Mult", "*") | Div => ("Div", "/")
  | Mod => ("Mod", "%") | Pow => ("Pow", "**") | LShift => ("LShift", "<<")
  | RShift => ("RShift", ">>") | BitOr => ("BitOr", "|") | BitXor => ("BitXor", "^")
  | BitAnd => ("BitAnd", "&") | FloorDiv => ("FloorDiv", "//")
  end%string.
Definition boolean_operator (op : boolop) : string * string :=
  match op with And => ("And", "and") | Or => ("Or", "or") end%string.
Inductive comparison_operator : cmpop -> string -> string -> Prop :=
| C_eq : comparison_operator Eq "Eq" "=="
| C_ne : comparison_operator NotEq "NotEq" "!="
| C_lt : comparison_operator Lt "Lt" "<"
| C_le : comparison_operator LtE "LtE" "<="
| C_gt : comparison_operator Gt "Gt" ">"
| C_ge : comparison_operator GtE "GtE" ">=".
Definition op_vertex (p : pos) (n : string * string) (l : list vertex) : vertex :=
  OperatorVertex p (lit (fst n)) (lit (snd n)) l.

(** An expression and the vertex it denotes.  A subscript is not part of another subscript, nor
    an attribute of another attribute: [s] and [a] tell whether we are inside one. *)
Inductive denotes : bool -> bool -> py_expr -> vertex -> Prop :=
| D_name s a p x : denotes s a (PName p x) (NameVertex p x)
| D_int s a p z : - 2 ^ 31 <= z < 2 ^ 31 ->
    denotes s a (PNum p (PyInt z)) (NumberVertex p (NumberInt S64 z))
| D_long s a p z : - 2 ^ 31 <= z < 2 ^ 31 ->
    denotes s a (PNum p (PyLong z)) (NumberVertex p (NumberInt S64 z))
| D_float s a p x y : read_double (show_double x) = Some y ->   (* see C69 *)
    denotes s a (PNum p (PyFloat x)) (NumberVertex p (NumberFloat Double y))
| D_string s a p t : denotes s a (PStr p t) (StringVertex p t)
| D_call_none s a p q f :
    denotes s a (PCall p (PName q f) None [] None None) (FunctionCallVertex p f [])
| D_call s a p q f l v : l <> [] -> denotes_all s a l v ->
    denotes s a (PCall p (PName q f) (Some l) [] None None) (FunctionCallVertex p f v)
| D_unary s a p op e v : denotes s a e v ->
    denotes s a (PUnaryOp p op e) (op_vertex p (unary_operator op) [v])
| D_binary s a p op e f v w : denotes s a e v -> denotes s a f w ->
    denotes s a (PBinOp p e op f) (op_vertex p (binary_operator op) [v; w])
| D_boolean s a p op e f v w : denotes s a e v -> denotes s a f w ->
    denotes s a (PBoolOp p op [e; f]) (op_vertex p (boolean_operator op) [v; w])
| D_compare s a p op n m e f v w : comparison_operator op n m ->
    denotes s a e v -> denotes s a f w ->
    denotes s a (PCompare p e [op] [f]) (op_vertex p (n, m) [v; w])
| D_subscript a p e i v w : denotes true a e v -> denotes true a i w ->
    denotes false a (PSubscript p e (Some i)) (SubscriptVertex p v w)
| D_attribute s p e x v : denotes s true e v ->
    denotes s false (PAttribute p e x) (AttributeVertex p v x)
with denotes_all : bool -> bool -> list py_expr -> list vertex -> Prop :=
| D_nil s a : denotes_all s a [] []
| D_cons s a e l v w : denotes s a e v -> denotes_all s a l w ->
    denotes_all s a (e :: l) (v :: w).

(** The vertex of an expression that is a statement has the position of the statement. *)
Definition moved (p : pos) (e : py_expr) : py_expr :=
  match e with
  | PName _ x => PName p x
  | PNum _ n => PNum p n
  | PStr _ s => PStr p s
  | PUnicode _ => PUnicode p
  | PCall _ f l k a b => PCall p f l k a b
  | PUnaryOp _ op e => PUnaryOp p op e
  | PBinOp _ e op f => PBinOp p e op f
  | PBoolOp _ op l => PBoolOp p op l
  | PCompare _ e ops l => PCompare p e ops l
  | PSubscript _ e i => PSubscript p e i
  | PAttribute _ e x => PAttribute p e x
  | POther _ k => POther p k
  end.
Inductive denotes_stmt : py_stmt -> statement_vertex -> Prop :=
| D_expr p e v : denotes false false (moved p e) v -> denotes_stmt (SExpr p e) (ExpressionVertex v)
| D_assign p q x e v : denotes false false e v ->
    denotes_stmt (SAssign p [PName q x] e) (AssignmentVertex p (NameVertex q x) v)
| D_if p c t f v w u : denotes false false c v -> denotes_stmts t w -> denotes_stmts f u ->
    denotes_stmt (SIf p c t f) (IfVertex p v w u)
| D_while p c t f v w u : denotes false false c v -> denotes_stmts t w -> denotes_stmts f u ->
    denotes_stmt (SWhile p c t f) (WhileVertex p v w u)
| D_def p x a b d v w : denotes_all false false (args a) v -> denotes_stmts b w ->
    denotes_stmt (SFunctionDef p x a b d) (FunctionDefinitionVertex p x v w)
| D_return_none p : denotes_stmt (SReturn p None) (ReturnVertex p None)
| D_return p e v : denotes false false e v ->
    denotes_stmt (SReturn p (Some e)) (ReturnVertex p (Some v))
with denotes_stmts : list py_stmt -> list statement_vertex -> Prop :=
| D_stmts_nil : denotes_stmts [] []
| D_stmts_cons x l v w : denotes_stmt x v -> denotes_stmts l w ->
    denotes_stmts (x :: l) (v :: w).

(** ** What is wrong with a script, in the order in which it is read *)

(** The construct is not supported, which is reported; something the code asserts not to be
    there *)
Inductive problem := NotSupported (construct : string) (p : pos) | Unforeseen.

Definition expr_kind (k : other_expr) : string :=
  match k with
  | IfExp => "if" | Lambda => "lambda" | Dict => "dictionary"
  | DictComp => "dictionary comprehension" | GeneratorExp => "generator" | Yield => "yield"
  | Repr => "repr" | List_ => "list" | ListComp => "list comprehension" | Set_ => "set"
  | SetComp => "set comprehension" | Tuple => "tuple"
  end.
Definition stmt_kind (k : other_stmt) : string :=
  match k with
  | Print_ => "print" | Break => "break" | Continue => "continue" | Assert => "assert"
  | AugAssign => "augmented assign" | Global => "global" | Pass => "pass"
  | ClassDef => "define class" | Delete => "delete" | For => "for" | With => "with"
  | Raise => "raise" | TryExcept => "try/except" | TryFinally => "try/finally"
  | Import_ => "import" | ImportFrom => "import from" | Exec => "exec"
  end.

Fixpoint problems (e : py_expr) : list problem :=
  match e with
  | PName _ _ | PStr _ _ => []
  | PNum _ n => match n with PyComplex => [Unforeseen] | _ => [] end
  | PUnicode _ => [Unforeseen]
  | PCall _ f l k a b =>
      match k, a, b with
      | [], None, None =>
          match f with PName _ _ => [] | _ => [Unforeseen] end ++
          match l with
          | None => []
          | Some [] => [Unforeseen]
          | Some l => flat_map problems l
          end
      | _, _, _ => [Unforeseen]
      end
  | PUnaryOp _ _ e => problems e
  | PBinOp _ e _ f => problems e ++ problems f
  | PBoolOp _ _ l => match l with [] => [Unforeseen] | _ => flat_map problems l end
  | PCompare _ e ops l =>
      match ops, l with
      | [op], [f] =>
          match op with Is | IsNot | In | NotIn => [Unforeseen] | _ => [] end ++
          problems e ++ problems f
      | _, _ => [Unforeseen]
      end
  | PSubscript _ e i => problems e ++ match i with Some i => problems i | None => [Unforeseen] end
  | PAttribute _ e _ => problems e
  | POther p k => [NotSupported (expr_kind k) p]
  end%list.

Fixpoint stmt_problems (x : py_stmt) : list problem :=
  match x with
  | SExpr _ e => problems e
  | SAssign _ l e => match l with [PName _ _] => problems e | _ => [Unforeseen] end
  | SIf _ c t f | SWhile _ c t f =>
      problems c ++ flat_map stmt_problems t ++ flat_map stmt_problems f
  | SFunctionDef _ _ a b _ => flat_map problems (args a) ++ flat_map stmt_problems b
  | SReturn _ e => match e with Some e => problems e | None => [] end
  | SOther p k => [NotSupported (stmt_kind k) p]
  end%list.

Definition report (q : problem) : outcome :=
  match q with NotSupported k p => Rejected k p | Unforeseen => Aborts end.

(** ** What is wrong with a script whose constructs are supported, in the order in which its
    tree is read *)

(** A number that the XML does not admit; a tree the code asserts not to be there *)
Inductive fault := BadNumber | BadTree.

Fixpoint faults (s a : bool) (e : py_expr) : list fault :=
  match e with
  | PName _ _ | PStr _ _ => []
  | PNum _ (PyInt z) | PNum _ (PyLong z) =>
      if (- 2 ^ 31 <=? z) && (z <? 2 ^ 31) then [] else [BadNumber]
  | PNum _ (PyFloat x) =>   (* infinite, or not a number: see C69 *)
      match read_double (show_double x) with Some _ => [] | None => [BadNumber] end
  | PCall _ _ l _ _ _ => match l with Some l => flat_map (faults s a) l | None => [] end
  | PUnaryOp _ _ e => faults s a e
  | PBinOp _ e _ f => faults s a e ++ faults s a f
  | PBoolOp _ _ l =>
      flat_map (faults s a) l ++ (if (length l =? 2)%nat then [] else [BadTree])
  | PCompare _ e _ l => faults s a e ++ flat_map (faults s a) l
  | PSubscript _ e i =>
      faults true a e ++ (if s then [BadTree] else []) ++
      match i with Some i => faults true a i | None => [] end
  | PAttribute _ e _ => faults s true e ++ (if a then [BadTree] else [])
  | PNum _ PyComplex | PUnicode _ | POther _ _ => []   (* a [problem] *)
  end%list.

Fixpoint stmt_faults (x : py_stmt) : list fault :=
  match x with
  | SExpr _ e => faults false false e
  | SAssign _ _ e => faults false false e
  | SIf _ c t f | SWhile _ c t f =>
      faults false false c ++ flat_map stmt_faults t ++ flat_map stmt_faults f
  | SFunctionDef _ _ a b _ => flat_map (faults false false) (args a) ++ flat_map stmt_faults b
  | SReturn _ e => match e with Some e => faults false false e | None => [] end
  | SOther _ _ => []
  end%list.

Definition complaint (q : fault) : outcome := match q with BadNumber => Malformed | BadTree => Aborts end.
