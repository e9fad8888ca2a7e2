(** * What a printed script has to be

    A part of the grammar of Python 2.7, independent of the printer: which texts are which
    scripts.  Not in it: the limits that Python puts on the depth of nested brackets and blocks. *)

From Coq Require Import String Ascii List Bool ZArith SpecFloat.
From Verif Require Import IntsModel FloatModel StringModel DecimalModel ScriptModel ScriptSpec.
Import ListNotations.
Open Scope Z_scope.

(** ** Names and strings *)

Definition keywords : list string :=
  ["and"; "as"; "assert"; "break"; "class"; "continue"; "def"; "del"; "elif"; "else"; "except";
   "exec"; "finally"; "for"; "from"; "global"; "if"; "import"; "in"; "is"; "lambda"; "not"; "or";
   "pass"; "print"; "raise"; "return"; "try"; "while"; "with"; "yield";
   "None"; "__debug__"]%string.   (* the last two are names, but cannot be assigned to *)
Definition reserved (x : text) : Prop := List.In x (map lit keywords).

(** A string that is written as it is between double quotes *)
Definition plain_string (s : text) : Prop :=
  Forall (fun c => (code c = 9 \/ 32 <= code c < 128) /\ c <> """"%char /\ c <> "\"%char) s.

(** ** Scripts without positions, and with integers for long integers *)

Definition nowhere : pos := At 0 0.
Definition norm_number (n : py_number) : py_number := match n with PyLong z => PyInt z | _ => n end.
Fixpoint norm (e : py_expr) : py_expr :=
  match e with
  | PName _ x => PName nowhere x
  | PNum _ n => PNum nowhere (norm_number n)
  | PStr _ s => PStr nowhere s
  | PUnicode _ => PUnicode nowhere
  | PCall _ f l k a b =>
      PCall nowhere (norm f) (option_map (map norm) l) (map (fun x => (fst x, norm (snd x))) k)
        (option_map norm a) (option_map norm b)
  | PUnaryOp _ op e => PUnaryOp nowhere op (norm e)
  | PBinOp _ e op f => PBinOp nowhere (norm e) op (norm f)
  | PBoolOp _ op l => PBoolOp nowhere op (map norm l)
  | PCompare _ e ops l => PCompare nowhere (norm e) ops (map norm l)
  | PSubscript _ e i => PSubscript nowhere (norm e) (option_map norm i)
  | PAttribute _ e x => PAttribute nowhere (norm e) x
  | POther _ k => POther nowhere k
  end.
Definition norm_arguments (a : arguments_ty) : arguments_ty :=
  {| args := map norm (args a); vararg := vararg a; kwarg := kwarg a;
     defaults := map norm (defaults a) |}.
Fixpoint norm_stmt (s : py_stmt) : py_stmt :=
  match s with
  | SExpr _ e => SExpr nowhere (norm e)
  | SAssign _ l e => SAssign nowhere (map norm l) (norm e)
  | SIf _ c t f => SIf nowhere (norm c) (map norm_stmt t) (map norm_stmt f)
  | SWhile _ c t f => SWhile nowhere (norm c) (map norm_stmt t) (map norm_stmt f)
  | SFunctionDef _ x a b d =>
      SFunctionDef nowhere x (norm_arguments a) (map norm_stmt b) (map norm d)
  | SReturn _ e => SReturn nowhere (option_map norm e)
  | SOther _ k => SOther nowhere k
  end.

(** Trees without positions *)
Fixpoint bare (v : vertex) : vertex :=
  match v with
  | NameVertex _ x => NameVertex nowhere x
  | StringVertex _ s => StringVertex nowhere s
  | NumberVertex _ n => NumberVertex nowhere n
  | FunctionCallVertex _ x l => FunctionCallVertex nowhere x (map bare l)
  | OperatorVertex _ x s l => OperatorVertex nowhere x s (map bare l)
  | SubscriptVertex _ e s => SubscriptVertex nowhere (bare e) (bare s)
  | AttributeVertex _ e m => AttributeVertex nowhere (bare e) m
  end.
Fixpoint bare_stmt (s : statement_vertex) : statement_vertex :=
  match s with
  | ExpressionVertex e => ExpressionVertex (bare e)
  | AssignmentVertex _ t e => AssignmentVertex nowhere (bare t) (bare e)
  | IfVertex _ c t f => IfVertex nowhere (bare c) (map bare_stmt t) (map bare_stmt f)
  | WhileVertex _ c t f => WhileVertex nowhere (bare c) (map bare_stmt t) (map bare_stmt f)
  | FunctionDefinitionVertex _ x l b =>
      FunctionDefinitionVertex nowhere x (map bare l) (map bare_stmt b)
  | ReturnVertex _ e => ReturnVertex nowhere (option_map bare e)
  end.
Definition bare_script (m : module_vertex) : module_vertex :=
  ModuleVertex (source_name m) (map bare_stmt (scope m)).

(** ** Expressions

    The levels of the grammar: 0 [or], 1 [and], 2 [not], 3 comparisons, 4 [|], 5 [^], 6 [&],
    7 shifts, 8 sums, 9 products, 10 signs, 11 powers, 12 what binds strongest. *)

Definition level_of (op : operator) : nat :=
  match op with
  | BitOr => 4 | BitXor => 5 | BitAnd => 6 | LShift | RShift => 7 | Add | Sub => 8
  | Mult | Div | Mod | FloorDiv => 9 | Pow => 11
  end.

Definition digit (c : ascii) : Prop := 48 <= code c <= 57.

Inductive reads : nat -> text -> py_expr -> Prop :=
| R_weaker l l' t e : (l <= l')%nat -> reads l' t e -> reads l t e
| R_name x : identifier x -> ~ reserved x -> reads 12 x (PName nowhere x)
| R_int z : 0 <= z < 2 ^ 63 -> reads 12 (show_int z) (PNum nowhere (PyInt z))
| R_negative z : 0 < z < 2 ^ 63 -> reads 10 (lit "-" ++ show_int z) (PNum nowhere (PyInt (- z)))
| R_string s : plain_string s -> reads 12 (lit """" ++ s ++ lit """") (PStr nowhere s)
| R_brackets t e : reads 0 t e -> reads 12 (lit "(" ++ t ++ lit ")") e
| R_call_none t f : reads 12 t f -> reads 12 (t ++ lit "()") (PCall nowhere f None [] None None)
| R_call t f u l : reads 12 t f -> list_of u l ->
    reads 12 (t ++ lit "(" ++ u ++ lit ")") (PCall nowhere f (Some l) [] None None)
| R_subscript t e u i : reads 12 t e -> reads 0 u i ->
    reads 12 (t ++ lit "[" ++ u ++ lit "]") (PSubscript nowhere e (Some i))
| R_attribute t e x : reads 12 t e -> identifier x -> ~ reserved x ->
    ((exists n, e = PNum nowhere n) -> exists u, t = u ++ lit ")") ->   (* 1.a is not [(1).a] *)
    reads 12 (t ++ lit "." ++ x) (PAttribute nowhere e x)
| R_power t e u f : reads 12 t e -> reads 10 u f ->
    reads 11 (t ++ lit " ** " ++ u) (PBinOp nowhere e Pow f)
| R_sign op t e : op <> Not -> reads 10 t e ->
    (op = USub -> forall c u, t = c :: u -> ~ digit c) ->   (* -1 is a number *)
    reads 10 (lit (snd (unary_operator op)) ++ t) (PUnaryOp nowhere op e)
| R_binary op t e u f : op <> Pow -> reads (level_of op) t e -> reads (S (level_of op)) u f ->
    reads (level_of op) (t ++ lit " " ++ lit (snd (binary_operator op)) ++ lit " " ++ u)
      (PBinOp nowhere e op f)
| R_compare op n m t e u f : comparison_operator op n m -> reads 4 t e -> reads 4 u f ->
    reads 3 (t ++ lit " " ++ lit m ++ lit " " ++ u) (PCompare nowhere e [op] [f])
| R_not t e : reads 2 t e -> reads 2 (lit "not " ++ t) (PUnaryOp nowhere Not e)
| R_and t e u f : reads 2 t e -> reads 2 u f ->
    reads 1 (t ++ lit " and " ++ u) (PBoolOp nowhere And [e; f])
| R_or t e u f : reads 1 t e -> reads 1 u f ->
    reads 0 (t ++ lit " or " ++ u) (PBoolOp nowhere Or [e; f])
with list_of : text -> list py_expr -> Prop :=
| L_one t e : reads 0 t e -> list_of t [e]
| L_more t e u l : reads 0 t e -> list_of u l -> list_of (t ++ lit ", " ++ u) (e :: l).

(** ** Statements, that start in a column *)

Definition line_of (column : nat) (t : text) : text := repeat " "%char column ++ t ++ ["010"%char].

Inductive stmt_at : nat -> text -> py_stmt -> Prop :=
| T_expr k t e : reads 0 t e -> stmt_at k (line_of k t) (SExpr nowhere e)
| T_assign k x t e : identifier x -> ~ reserved x -> reads 0 t e ->
    stmt_at k (line_of k (x ++ lit " = " ++ t)) (SAssign nowhere [PName nowhere x] e)
| T_if k t c u b w o : reads 0 t c -> suite k u b -> else_at k w o ->
    stmt_at k (line_of k (lit "if " ++ t ++ lit ":") ++ u ++ w) (SIf nowhere c b o)
| T_while k t c u b w o : reads 0 t c -> suite k u b -> else_at k w o ->
    stmt_at k (line_of k (lit "while " ++ t ++ lit ":") ++ u ++ w) (SWhile nowhere c b o)
(** What is indented more than a column *)
with suite : nat -> text -> list py_stmt -> Prop :=
| T_suite k k' t l : (k < k')%nat -> l <> [] -> block k' t l -> suite k t l
with else_at : nat -> text -> list py_stmt -> Prop :=
| T_no_else k : else_at k [] []
| T_else k t l : suite k t l -> else_at k (line_of k (lit "else:") ++ t) l
with block : nat -> text -> list py_stmt -> Prop :=
| T_nil k : block k [] []
| T_cons k t s u l : stmt_at k t s -> block k u l -> block k (t ++ u) (s :: l).

Definition script (t : text) (l : list py_stmt) : Prop := block 0 t l.

(** ** Scripts that can be printed and read again

    No [not], no numbers with a fraction, no strings that have to be written otherwise than they
    are, no functions.  That names are not reserved is what Python's parser promises. *)

Section Every.
Context {X : Type}.
Variable P : X -> Prop.
Fixpoint every (l : list X) : Prop := match l with [] => True | x :: l' => P x /\ every l' end.
End Every.

Fixpoint survives (e : py_expr) : Prop :=
  match e with
  | PName _ x => ~ reserved x
  | PNum _ n => match n with PyFloat _ => False | _ => True end
  | PStr _ s => plain_string s
  | PCall _ f l _ _ _ => survives f /\ match l with Some l => every survives l | None => True end
  | PUnaryOp _ op e => op <> Not /\ survives e
  | PBinOp _ e _ f => survives e /\ survives f
  | PBoolOp _ _ l => every survives l
  | PCompare _ e _ l => survives e /\ every survives l
  | PSubscript _ e i => survives e /\ match i with Some i => survives i | None => True end
  | PAttribute _ e x => survives e /\ ~ reserved x
  | PUnicode _ | POther _ _ => True   (* not in a tree *)
  end.
Fixpoint stmt_survives (s : py_stmt) : Prop :=
  match s with
  | SExpr _ e => survives e
  | SAssign _ l e => every survives l /\ survives e
  | SIf _ c t f | SWhile _ c t f => survives c /\ every stmt_survives t /\ every stmt_survives f
  | SFunctionDef _ _ _ _ _ | SReturn _ _ => False
  | SOther _ _ => True                (* not in a tree *)
  end.

(** Whether there are functions in a tree *)
Fixpoint has_function (s : statement_vertex) : bool :=
  match s with
  | ExpressionVertex _ | AssignmentVertex _ _ _ => false
  | IfVertex _ _ t f | WhileVertex _ _ t f => existsb has_function t || existsb has_function f
  | FunctionDefinitionVertex _ _ _ _ | ReturnVertex _ _ => true
  end.
