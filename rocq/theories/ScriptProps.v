(** * From script to syntax tree: properties *)

From Coq Require Import String Ascii List Bool ZArith Lia SpecFloat.
From Verif Require Import IntsModel FloatModel StringModel DecimalModel ScriptModel ScriptSpec ScriptProofs.
Import ListNotations.
Open Scope Z_scope.

(** A script is turned into the tree of vertices that it denotes, names, numbers, strings,
    positions and all; and if there is none, into no tree. *)
Theorem C68_parses src body m : printable src -> Forall python_stmt body ->
  (parse_script src body = Tree m <-> exists v, denotes_stmts body v /\ m = ModuleVertex src v).
Proof.
  intros S W. destruct (flat_map stmt_problems body) as [|q l] eqn:E; [apply parses_iff; assumption|].
  split.
  - intros T. pose proof (script_result src body) as R. rewrite E in R. cbn [result] in R.
    unfold parse_script in T. rewrite R in T. destruct q; discriminate T.
  - intros (v & D & _). apply denotes_stmts_clean in D. congruence.
Qed.

(** The first construct that is not supported is reported, with its position, whatever else
    there is in the script; something the code asserts not to be there aborts it. *)
Theorem C68_reports src body q l :
  flat_map stmt_problems body = q :: l -> parse_script src body = report q.
Proof.
  intros E. pose proof (script_result src body) as R. rewrite E in R. cbn [result] in R.
  unfold parse_script. rewrite R. destruct q; reflexivity.
Qed.

(** Nothing else is reported as not supported. *)
Theorem C68_rejects src body k p :
  parse_script src body = Rejected k p <->
  exists l, flat_map stmt_problems body = NotSupported k p :: l.
Proof.
  split.
  - intros T. pose proof (script_result src body) as R. destruct (flat_map stmt_problems body) as [|q l].
    + destruct R as [t R]. unfold parse_script in T. rewrite R in T. destruct (parse_xml t); discriminate T.
    + exists l. cbn [result] in R. unfold parse_script in T. rewrite R in T. destruct q; [|discriminate T].
      injection T as -> ->. reflexivity.
  - intros [l E]. rewrite (C68_reports src body _ _ E). reflexivity.
Qed.

(** A script whose constructs are supported is parsed, unless it contains a number that the
    schema of the XML does not admit, which is an error, or nested subscripts or attributes or
    [and]s and [or]s of other than two operands, which abort: whichever comes first. *)
Theorem C68_outcome src body : printable src -> Forall python_stmt body ->
  flat_map stmt_problems body = [] ->
  match flat_map stmt_faults body with
  | [] => exists m, parse_script src body = Tree m
  | q :: _ => parse_script src body = complaint q
  end.
Proof. apply parse_faulty. Qed.

(** Integers are read as 32 bit numbers although they are written as 64 bit numbers: larger
    ones make the script malformed; and those that do not fit in 64 bits are replaced by -1. *)
Theorem C68_wide_refuted src p q z : printable src -> position_ok p -> position_ok q ->
  2 ^ 31 <= z < 2 ^ 63 ->
  parse_script src [SExpr p (PNum q (PyInt z))] = Malformed /\
  parse_script src [SExpr p (PNum q (PyLong z))] = Malformed.
Proof.
  intros S P Q Z.
  assert (F : (- 2 ^ 31 <=? z) && (z <? 2 ^ 31) = false) by (rewrite (proj2 (Z.ltb_ge _ _)) by lia; apply andb_false_r).
  split.
  - assert (W : Forall python_stmt [SExpr p (PNum q (PyInt z))]).
    { constructor; [|constructor]. constructor; [exact P|]. constructor; [exact Q|lia]. }
    pose proof (parse_faulty src _ S W eq_refl) as H. cbn [flat_map stmt_faults faults] in H. rewrite F in H. exact H.
  - assert (W : Forall python_stmt [SExpr p (PNum q (PyLong z))]).
    { constructor; [|constructor]. constructor; [exact P|]. constructor; [exact Q|lia]. }
    pose proof (parse_faulty src _ S W eq_refl) as H. cbn [flat_map stmt_faults faults] in H. rewrite F in H. exact H.
Qed.

Theorem C68_long_refuted src p q z : printable src -> position_ok p -> position_ok q ->
  z < - 2 ^ 63 \/ 2 ^ 63 <= z ->
  parse_script src [SExpr p (PNum q (PyLong z))] =
  Tree (ModuleVertex src [ExpressionVertex (NumberVertex p (NumberInt S64 (-1)))]).
Proof.
  intros S P Q Z.
  assert (E : parse_script src [SExpr p (PNum q (PyLong z))] = parse_script src [SExpr p (PNum q (PyLong (-1)))]).
  { assert (A : as_long_long z = -1).
    { unfold as_long_long. destruct Z as [Z|Z].
      - rewrite (proj2 (Z.leb_gt _ _)) by lia. reflexivity.
      - rewrite (proj2 (Z.leb_gt z _)) by lia. rewrite andb_false_r. reflexivity. }
    unfold parse_script, write_script. cbn [write_statement_nodes map concat write_statement write_expression_node].
    assert (B : write_number_node (PyLong z) = write_number_node (PyLong (-1))) by (unfold write_number_node; rewrite A; reflexivity).
    rewrite B. reflexivity. }
  rewrite E. apply C68_parses; [exact S| |].
  - constructor; [|constructor]. constructor; [exact P|]. constructor; [exact Q|lia].
  - eexists. split; [|reflexivity]. constructor; [|constructor].
    apply D_expr. constructor. lia.
Qed.

(** Strings are not escaped: whatever statement there is, a script that consists of a single
    string literal can be made to have it in its tree. *)
Theorem C68_injection_refuted src p q y v : printable src -> position_ok p -> position_ok q ->
  python_stmt y -> denotes_stmt y v ->
  exists s, parse_script src [SExpr p (PStr q s)] =
    Tree (ModuleVertex src [ExpressionVertex (StringVertex p (lit "a")); v;
                      ExpressionVertex (StringVertex p (lit "b"))]).
Proof.
  intros S P Q W D. eexists. rewrite (smuggle src p q y W (denotes_stmt_clean _ _ D)).
  assert (A : forall s, (s = "a" \/ s = "b")%string -> python_stmt (SExpr p (PStr q (lit s)))).
  { intros s [-> | ->]; (constructor; [exact P|]; constructor; [exact Q|]; split;
      [repeat constructor; try discriminate; right; right; cbn; lia|]);
      intros a b E; apply (f_equal (@length ascii)) in E; rewrite !app_length in E; cbn in E; lia. }
  apply C68_parses; [exact S| |].
  - constructor; [auto|]. constructor; [exact W|]. constructor; [auto|constructor].
  - eexists. split; [|reflexivity]. constructor; [apply D_expr; constructor|].
    constructor; [exact D|]. constructor; [apply D_expr; constructor|constructor].
Qed.

(** A string is cut off at the first null character. *)
Theorem C68_cut_refuted src p q s t : s <> [] -> Forall (fun c => c <> "000"%char) s ->
  parse_script src [SExpr p (PStr q (s ++ "000"%char :: t))] = parse_script src [SExpr p (PStr q s)].
Proof.
  intros N F. assert (C : c_string (s ++ "000"%char :: t) = c_string s).
  { clear N. induction F as [|c s A _ IH]; [reflexivity|]. cbn [app c_string].
    destruct (Ascii.eqb_spec c "000"); [contradiction|]. rewrite IH. reflexivity. }
  assert (E : write_string_node (s ++ "000"%char :: t) = write_string_node s).
  { destruct s as [|c s]; [congruence|]. unfold write_string_node. cbn [app] in *. rewrite C. reflexivity. }
  unfold parse_script, write_script. cbn [write_statement_nodes map concat write_statement write_expression_node].
  rewrite E. reflexivity.
Qed.
Example cut_case p q : parse_script (lit "x") [SExpr p (PStr q (lit "a" ++ "000"%char :: lit "b"))] =
  parse_script (lit "x") [SExpr p (PStr q (lit "a"))].
Proof. apply C68_cut_refuted; [discriminate|repeat constructor; discriminate]. Qed.

(** Default values of arguments, further arguments and decorators are dropped. *)
Theorem C68_dropped_refuted src p x a b d rest :
  parse_script src (SFunctionDef p x a b d :: rest) =
  parse_script src (SFunctionDef p x {| args := args a; vararg := None; kwarg := None; defaults := [] |} b [] :: rest).
Proof.
  unfold parse_script, write_script. cbn [write_statement_nodes map concat].
  assert (E : write_statement (SFunctionDef p x a b d) = write_statement
    (SFunctionDef p x {| args := args a; vararg := None; kwarg := None; defaults := [] |} b [])).
  { cbn [write_statement stmt_pos args]. reflexivity. }
  rewrite E. reflexivity.
Qed.

(** ** Cases *)

(** [def f(x):]
    [  return -x ** 2]
    [if a.b[0] == "e":]
    [  c = f(2147483647, 0.5)] *)
Definition script : list py_stmt :=
  [SFunctionDef (At 1 0) (lit "f") {| args := [PName (At 1 6) (lit "x")]; vararg := None; kwarg := None; defaults := [] |}
     [SReturn (At 2 2) (Some (PUnaryOp (At 2 9) USub
        (PBinOp (At 2 10) (PName (At 2 10) (lit "x")) Pow (PNum (At 2 15) (PyInt 2)))))] [];
   SIf (At 3 0) (PCompare (At 3 3) (PSubscript (At 3 3) (PAttribute (At 3 3) (PName (At 3 3) (lit "a")) (lit "b")) (Some (PNum (At 3 7) (PyInt 0))))
                   [Eq] [PStr (At 3 13) (lit "e")])
     [SAssign (At 4 2) [PName (At 4 2) (lit "c")]
        (PCall (At 4 6) (PName (At 4 6) (lit "f"))
           (Some [PNum (At 4 8) (PyInt 2147483647); PNum (At 4 20) (PyFloat (S754_finite false (2 ^ 52) (-53)))]) [] None None)] []].

Lemma name_ok (s : string) : match lit s with
  | c :: r => (65 <=? code c) && (code c <=? 90) || (97 <=? code c) && (code c <=? 122) || (code c =? 95)
              && forallb (fun d => (97 <=? code d) && (code d <=? 122)) r
  | [] => false end = true -> length (lit s) = 1%nat -> identifier (lit s).
Proof.
  destruct (lit s) as [|c [|]]; try discriminate. cbn [forallb]. rewrite andb_true_r, !orb_true_iff, !andb_true_iff, !Z.leb_le, Z.eqb_eq.
  intros H _. exists c, []. repeat split; [|constructor]. unfold name_letter. tauto.
Qed.

Example C68_script_ok : Forall python_stmt script /\ flat_map stmt_problems script = [] /\ flat_map stmt_faults script = [].
Proof.
  split; [|split; vm_compute; reflexivity]. unfold script.
  assert (P : forall a b, 0 <= a < 100 -> 0 <= b < 100 -> position_ok (At a b)) by (intros; split; cbn [line col]; lia).
  assert (N : forall s, List.In s ["f"; "x"; "a"; "b"; "c"]%string -> identifier (lit s)).
  { intros s [<-|[<-|[<-|[<-|[<-|[]]]]]]; apply name_ok; reflexivity. }
  assert (T : plain_text (lit "e")).
  { split; [repeat constructor; try discriminate; right; right; cbn; lia|].
    intros a b E. apply (f_equal (@length ascii)) in E. rewrite !app_length in E. cbn in E. lia. }
  repeat first
   [ apply Forall_nil | apply Forall_cons | apply P; lia | exact T | match goal with |- identifier (lit ?s) => apply (N s); cbn; tauto end | apply (N "x"%string); cbn; tauto | progress cbn [args]
   | discriminate | lia
   | match goal with |- forall f, Some _ = Some f -> _ => intros f [= <-] end
   | constructor ].
Qed.

Example C68_case : parse_script (lit "a<b>.ran") script = Tree (ModuleVertex (lit "a<b>.ran")
  [FunctionDefinitionVertex (At 1 0) (lit "f") [NameVertex (At 1 6) (lit "x")]
     [ReturnVertex (At 2 2) (Some (OperatorVertex (At 2 9) (lit "UnarySub") (lit "-")
        [OperatorVertex (At 2 10) (lit "Pow") (lit "**")
           [NameVertex (At 2 10) (lit "x"); NumberVertex (At 2 15) (NumberInt S64 2)]]))];
   IfVertex (At 3 0) (OperatorVertex (At 3 3) (lit "Eq") (lit "==")
       [SubscriptVertex (At 3 3) (AttributeVertex (At 3 3) (NameVertex (At 3 3) (lit "a")) (lit "b")) (NumberVertex (At 3 7) (NumberInt S64 0));
        StringVertex (At 3 13) (lit "e")])
     [AssignmentVertex (At 4 2) (NameVertex (At 4 2) (lit "c"))
        (FunctionCallVertex (At 4 6) (lit "f") [NumberVertex (At 4 8) (NumberInt S64 2147483647);
           NumberVertex (At 4 20) (NumberFloat Double (S754_finite false (2 ^ 52) (-53)))])] []]).
Proof. vm_compute. reflexivity. Qed.

(** [for] in a function; nested subscripts; three operands of [and]; a chained comparison *)
Definition at0 := At 1 0.
Definition a_ := PName at0 (lit "a").
Example C68_problem_cases :
  parse_script (lit "s") [SExpr at0 a_; SFunctionDef at0 (lit "f") {| args := []; vararg := None; kwarg := None; defaults := [] |}
     [SOther (At 2 4) For; SExpr at0 (POther (At 3 4) Lambda)] []] = Rejected "for" (At 2 4) /\
  parse_script (lit "s") [SExpr at0 (PSubscript at0 a_ (Some (PSubscript at0 a_ (Some a_))))] = Aborts /\
  parse_script (lit "s") [SExpr at0 (PAttribute at0 (PAttribute at0 a_ (lit "b")) (lit "c"))] = Aborts /\
  parse_script (lit "s") [SExpr at0 (PBoolOp at0 And [a_; a_; a_])] = Aborts /\
  parse_script (lit "s") [SExpr at0 (PBoolOp at0 And [a_; PBoolOp at0 Or [a_; a_]])] <> Aborts /\
  parse_script (lit "s") [SExpr at0 (PCompare at0 a_ [Lt; Lt] [a_; a_])] = Aborts.
Proof. repeat split; vm_compute; try reflexivity. discriminate. Qed.

(** Strings that are not plain do not survive: [&lt;] becomes [<], and a carriage return a line
    feed; one with a [<] or a bare [&] makes the script malformed. *)
Example C68_string_cases :
  parse_script (lit "s") [SExpr at0 (PStr at0 (lit "&lt;"))] = Tree (ModuleVertex (lit "s") [ExpressionVertex (StringVertex at0 (lit "<"))]) /\
  parse_script (lit "s") [SExpr at0 (PStr at0 ["013"%char])] = Tree (ModuleVertex (lit "s") [ExpressionVertex (StringVertex at0 ["010"%char])]) /\
  parse_script (lit "s") [SExpr at0 (PStr at0 (lit "a<b"))] = Malformed /\
  parse_script (lit "s") [SExpr at0 (PStr at0 (lit "a&b"))] = Malformed /\
  parse_script (lit "s") [SExpr at0 (PStr at0 (lit "a>b'c"))] = Tree (ModuleVertex (lit "s") [ExpressionVertex (StringVertex at0 (lit "a>b'c"))]).
Proof. repeat split; vm_compute; reflexivity. Qed.

Print Assumptions C68_parses.
Print Assumptions C68_reports.
Print Assumptions C68_rejects.
Print Assumptions C68_outcome.
Print Assumptions C68_wide_refuted.
Print Assumptions C68_long_refuted.
Print Assumptions C68_injection_refuted.
Print Assumptions C68_dropped_refuted.
Print Assumptions C68_cut_refuted.
