(** * C84: printed scripts *)

From Coq Require Import String Ascii List Bool ZArith SpecFloat Lia.
From Verif Require Import IntsModel FloatModel StringModel DecimalModel ScriptModel ScriptSpec
  ScriptProofs ScriptProps PrintModel PrintSpec PrintProofs PrintUnique.
Import ListNotations.
Open Scope Z_scope.

Lemma every_Forall {X} (P : X -> Prop) l : every P l <-> Forall P l.
Proof. induction l as [|x l IH]; cbn [every]; [|rewrite Forall_cons_iff, IH]; intuition. Qed.

(** A script that has no [not], no fractions, plain strings and no functions is printed as a
    script that says the same: it is the same up to positions and the kind of integers, and
    whatever the positions are, it has the same tree. *)
Theorem C84_reads tab src body m : (0 < tab)%nat -> printable src -> Forall python_stmt body ->
  Forall stmt_survives body -> parse_script src body = Tree m ->
  exists t, (forall debug, print_script debug tab m = Some t) /\
    script t (map norm_stmt body) /\
    forall body', Forall python_stmt body' -> map norm_stmt body' = map norm_stmt body ->
      exists m', parse_script src body' = Tree m' /\ bare_script m' = bare_script m.
Proof.
  intros T S W V P. apply (C68_parses src body m S W) in P. destruct P as (v & D & ->).
  destruct (proj2 (denotes_good_stmt tab T) body v D W) as [G R]; [apply every_Forall, V|].
  exists (flat_map (ps tab 0) v). split; [|split].
  - intros debug. unfold print_script. cbn [scope]. apply (proj2 (visit_good tab debug) v G 0%nat []).
  - apply (R 0%nat).
  - intros body' W' E. destruct (proj2 norm_denotes_stmt body v D body' E) as (v' & D' & B).
    exists (ModuleVertex src v'). split; [apply (C68_parses src body' _ S W'); eauto|].
    unfold bare_script. cbn [source_name scope]. rewrite B. reflexivity.
Qed.

(** Two such scripts with different trees are printed differently. *)
Theorem C84_unique debug debug' tab src src' body body' m m' t : (0 < tab)%nat ->
  printable src -> printable src' -> Forall python_stmt body -> Forall python_stmt body' ->
  Forall stmt_survives body -> Forall stmt_survives body' ->
  parse_script src body = Tree m -> parse_script src' body' = Tree m' ->
  print_script debug tab m = Some t -> print_script debug' tab m' = Some t ->
  map bare_stmt (scope m) = map bare_stmt (scope m').
Proof.
  intros T S S' W W' V V' P P' E E'.
  apply (C68_parses src body m S W) in P. destruct P as (v & D & ->).
  apply (C68_parses src' body' m' S' W') in P'. destruct P' as (v' & D' & ->).
  destruct (proj2 (denotes_good_stmt tab T) body v D W) as [G _]; [apply every_Forall, V|].
  destruct (proj2 (denotes_good_stmt tab T) body' v' D' W') as [G' _]; [apply every_Forall, V'|].
  unfold print_script in E, E'. cbn [scope] in *. rewrite (proj2 (visit_good tab debug) v G 0%nat []) in E.
  rewrite (proj2 (visit_good tab debug') v' G' 0%nat []) in E'. rewrite <- E in E'. injection E' as E'.
  eapply (proj2 (ps_unique tab T) v G 0%nat v' [] [] G'); [left; reflexivity..|].
  rewrite !app_nil_r. symmetry. exact E'.
Qed.

Lemma show_some debug :
  (forall s a e v, denotes s a e v -> exists t, show_vertex debug v = Some t) /\
  (forall s a l w, denotes_all s a l w -> exists t, separated (show_vertex debug) w = Some t).
Proof.
  apply denotes_mutual; intros; cbn [show_vertex op_vertex separated fst snd]; unfold visit_expressions;
    repeat match goal with H : exists t, _ = Some t |- _ => destruct H as [? H]; rewrite ?H end; cbn [add word]; eauto.
  - eexists. reflexivity.
  - destruct w; eauto.
Qed.

Lemma visit_some debug tab :
  (forall x v, denotes_stmt x v -> forall k acc,
     if debug && has_function v then visit_statement debug tab k acc v = None
     else exists t, visit_statement debug tab k acc v = Some t) /\
  (forall l w, denotes_stmts l w -> forall k acc,
     if debug && existsb has_function w then visit_statements tab (visit_statement debug tab k) k acc w = None
     else exists t, visit_statements tab (visit_statement debug tab k) k acc w = Some t).
Proof.
  destruct (show_some debug) as [S A].
  assert (B : forall word c t f, (exists u, show_vertex debug c = Some u) ->
    (forall k acc, if debug && existsb has_function t then visit_statements tab (visit_statement debug tab k) k acc t = None
       else exists u, visit_statements tab (visit_statement debug tab k) k acc t = Some u) ->
    (forall k acc, if debug && existsb has_function f then visit_statements tab (visit_statement debug tab k) k acc f = None
       else exists u, visit_statements tab (visit_statement debug tab k) k acc f = Some u) ->
    forall k acc, let r :=
      also (also (Some acc +~+ Some (lit word) +~+ show_vertex debug c +~+ PrintModel.word ":" +~+ Some [newline])
        (fun printed => visit_statements tab (visit_statement debug tab (Datatypes.S k)) (Datatypes.S k) printed t))
        (fun printed =>
          match f with
          | [] => Some printed
          | _ => visit_statements tab (visit_statement debug tab (Datatypes.S k)) (Datatypes.S k)
                   (printed ++ indentation tab k ++ lit "else:" ++ [newline]) f
          end) in
      if debug && (existsb has_function t || existsb has_function f) then r = None else exists u, r = Some u).
  { intros word c t f [u U] T F k acc. cbv zeta. rewrite U. cbn [add PrintModel.word also].
    match goal with |- context [visit_statements tab _ _ ?x t] => specialize (T (Datatypes.S k) x) end.
    destruct debug; cbn [andb orb] in *.
    - destruct (existsb has_function t); cbn [orb].
      + rewrite T. reflexivity.
      + destruct T as [t' T]. rewrite T. cbn [also]. destruct f as [|s f]; [cbn [existsb]; eauto|]. apply F.
    - destruct T as [t' T]. rewrite T. cbn [also]. destruct f as [|s f]; [eauto|]. apply F. }
  apply denotes_stmt_mutual.
  - intros p e v D k acc. cbn [visit_statement has_function]. rewrite andb_false_r. destruct (S _ _ _ _ D) as [t ->]. cbn. eauto.
  - intros p q x e v D k acc. cbn [visit_statement has_function show_vertex]. rewrite andb_false_r. destruct (S _ _ _ _ D) as [t ->]. cbn. eauto.
  - intros p c t f v w u D Dt IHt Df IHf k acc. apply B; eauto.
  - intros p c t f v w u D Dt IHt Df IHf k acc. apply B; eauto.
  - intros p x a b d v w D Db IHb k acc. cbn [visit_statement has_function]. rewrite andb_true_r. unfold visit_expressions, unreachable.
    destruct (A _ _ _ _ D) as [t ->]. cbn [add word also].
    match goal with |- context [visit_statements tab _ _ ?x w] => specialize (IHb k x) end.
    destruct debug; cbn [andb] in *.
    + destruct (existsb has_function w); [rewrite IHb; reflexivity|]. destruct IHb as [u ->]. reflexivity.
    + destruct IHb as [u ->]. cbn. eauto.
  - intros p k acc. cbn [visit_statement has_function]. rewrite andb_true_r. unfold unreachable. destruct debug; cbn; eauto.
  - intros p e v D k acc. cbn [visit_statement has_function]. rewrite andb_true_r. unfold unreachable.
    destruct (S _ _ _ _ D) as [t ->]. destruct debug; cbn; eauto.
  - intros k acc. cbn. rewrite andb_false_r. eauto.
  - intros x l v w D IH Dl IHl k acc. cbn [visit_statements existsb]. specialize (IH k (acc ++ indentation tab k)).
    destruct debug; cbn [andb] in *.
    + destruct (has_function v); cbn [orb]; [rewrite IH; reflexivity|]. destruct IH as [u ->]. apply IHl.
    + destruct IH as [u ->]. apply IHl.
Qed.

(** Debug builds abort if and only if there is a function or a return; release builds print
    something. *)
Theorem C84_aborts tab src body m : printable src -> Forall python_stmt body -> parse_script src body = Tree m ->
  (print_script true tab m = None <-> existsb has_function (scope m) = true) /\
  exists t, print_script false tab m = Some t.
Proof.
  intros S W P. apply (C68_parses src body m S W) in P. destruct P as (v & D & ->). unfold print_script. cbn [scope].
  pose proof (proj2 (visit_some true tab) body v D 0%nat []) as A. pose proof (proj2 (visit_some false tab) body v D 0%nat []) as B.
  cbn [andb] in A, B. split; [|exact B]. destruct (existsb has_function v); [tauto|]. destruct A as [t A]. rewrite A. split; discriminate.
Qed.

(** ** What is not printed well *)

Lemma visit_more debug tab :
  (forall x v, denotes_stmt x v -> forall k acc t, visit_statement debug tab k acc v = Some t -> exists w, t = acc ++ w) /\
  (forall l w, denotes_stmts l w -> forall k acc t,
     visit_statements tab (visit_statement debug tab k) k acc w = Some t -> exists w, t = acc ++ w).
Proof.
  assert (A : forall acc b t, Some acc +~+ b = Some t -> exists w, t = acc ++ w).
  { intros acc [b|] t E; [|discriminate E]. injection E as <-. eauto. }
  assert (B : forall a (f : text -> option text) t, also a f = Some t -> exists u, a = Some u /\ f u = Some t).
  { intros [u|] f t E; [eauto|discriminate E]. }
  assert (C : forall x t f, 
    (forall k acc u, visit_statements tab (visit_statement debug tab k) k acc t = Some u -> exists w, u = acc ++ w) ->
    (forall k acc u, visit_statements tab (visit_statement debug tab k) k acc f = Some u -> exists w, u = acc ++ w) ->
    forall k acc r,
      also (also (Some acc +~+ x)
        (fun printed => visit_statements tab (visit_statement debug tab (Datatypes.S k)) (Datatypes.S k) printed t))
        (fun printed =>
          match f with
          | [] => Some printed
          | _ => visit_statements tab (visit_statement debug tab (Datatypes.S k)) (Datatypes.S k)
                   (printed ++ indentation tab k ++ lit "else:" ++ [newline]) f
          end) = Some r -> exists w, r = acc ++ w).
  { intros x t f T F k acc r E. apply B in E. destruct E as (u & E & E2). apply B in E. destruct E as (v & E & E3).
    apply A in E. destruct E as [w ->]. apply T in E3. destruct E3 as [w' ->].
    destruct f; [injection E2 as <-|apply F in E2; destruct E2 as [w'' ->]]; rewrite <- !app_assoc; eauto. }
  apply denotes_stmt_mutual.
  - intros p e v D k acc t. apply A.
  - intros p q x e v D k acc t. apply A.
  - intros p c t f v w u D Dt IHt Df IHf k acc r. apply C; assumption.
  - intros p c t f v w u D Dt IHt Df IHf k acc r. apply C; assumption.
  - intros p x a b d v w D Db IHb k acc t E. cbn [visit_statement] in E. apply B in E. destruct E as (u & E & E2).
    apply B in E. destruct E as (y & E & E3). apply A in E. destruct E as [z ->]. apply IHb in E3. destruct E3 as [z' ->].
    apply A in E2. destruct E2 as [z'' ->]. rewrite <- !app_assoc. eauto.
  - intros p k acc t. apply A.
  - intros p e v D k acc t. apply A.
  - intros k acc t [= <-]. exists []. symmetry. apply app_nil_r.
  - intros x l v w D IH Dl IHl k acc t E. cbn [visit_statements] in E.
    destruct (visit_statement debug tab k (acc ++ indentation tab k) v) as [u|] eqn:F; [|discriminate E].
    apply IH in F. destruct F as [y ->]. apply IHl in E. destruct E as [z ->].
    destruct (ends_with _ _); rewrite <- !app_assoc; eauto.
Qed.

Lemma reads_first l t e : reads l t e -> exists c u, t = c :: u /\ c <> "!"%char.
Proof.
  assert (D : forall x, identifier x -> exists c u, x = c :: u /\ c <> "!"%char).
  { intros x (c & u & -> & L & _). exists c, u. split; [reflexivity|]. intros ->.
    unfold name_letter in L. cbv in L. intuition discriminate. }
  assert (A : forall t u, (exists c w, t = c :: w /\ c <> "!"%char) -> exists c w, t ++ u = c :: w /\ c <> "!"%char).
  { intros ? u (c & w & -> & C). exists c, (w ++ u). auto. }
  induction 1; auto; try (eexists; eexists; split; [reflexivity|discriminate]).
  - pose proof (int_chars z) as I. pose proof (show_int_nonempty z) as Z.
    destruct (show_int z) as [|d t]; [congruence|]. exists d, t. split; [reflexivity|].
    apply Forall_cons_iff in I. destruct I as [[I|I] _]; [|subst d; discriminate].
    intros ->. cbv in I. apply (proj1 I). reflexivity.
  - destruct op; try congruence; (eexists; eexists; split; [reflexivity|discriminate]).
Qed.

Lemma script_first t l : script t l -> forall u, t <> "!"%char :: u.
Proof.
  unfold script. intros B u. destruct B as [|k t s w l S B]; [discriminate|].
  assert (F : exists c w, t = c :: w /\ (c = "!"%char -> k = 0%nat -> False) /\ (k <> 0%nat -> c = " "%char)).
  { assert (L : forall k x, (exists c w, x = c :: w /\ c <> "!"%char) ->
      exists c w, line_of k x = c :: w /\ (c = "!"%char -> k = 0%nat -> False) /\ (k <> 0%nat -> c = " "%char)).
    { intros j x (c & y & -> & C). destruct j; (eexists; eexists; split; [reflexivity|split; congruence]). }
    assert (L2 : forall k x y, (exists c w, x = c :: w /\ c <> "!"%char) ->
      exists c w, line_of k x ++ y = c :: w /\ (c = "!"%char -> k = 0%nat -> False) /\ (k <> 0%nat -> c = " "%char)).
    { intros j x y H. destruct (L j x H) as (c & z & -> & C). exists c, (z ++ y). auto. }
    destruct S.
    - apply L. eapply reads_first. eassumption.
    - apply L. destruct H as (c & y & -> & N & _). exists c, (y ++ lit " = " ++ t). split; [reflexivity|]. intros ->.
      unfold name_letter in N. cbv in N. intuition discriminate.
    - apply L2. eexists. eexists. split; [reflexivity|discriminate].
    - apply L2. eexists. eexists. split; [reflexivity|discriminate]. }
  destruct F as (c & x & -> & F & F'). intros E. injection E as -> _.
  destruct (Nat.eq_dec k 0); [apply F; auto|]. specialize (F' n). discriminate F'.
Qed.

(** [not e] is printed as [!(e)], which is not an expression. *)
Theorem C84_not_refuted debug tab src p q e rest m t : printable src ->
  Forall python_stmt (SExpr p (PUnaryOp q Not e) :: rest) ->
  parse_script src (SExpr p (PUnaryOp q Not e) :: rest) = Tree m ->
  print_script debug tab m = Some t -> forall l, ~ script t l.
Proof.
  intros S W P E l R. apply (C68_parses src _ m S W) in P. destruct P as (v & D & ->).
  inversion D as [|x1 l1 v1 w1 D1 D2]; subst. inversion D1; subst.
  match goal with H : denotes _ _ (moved _ _) _ |- _ => cbn [moved] in H; inversion H; subst end.
  match goal with H : denotes _ _ e _ |- _ => destruct (proj1 (show_some debug) _ _ _ _ H) as [u U] end.
  unfold print_script in E. cbn [scope visit_statements visit_statement op_vertex show_vertex] in E. rewrite U in E.
  cbn [add word] in E.
  match type of E with visit_statements _ _ _ ?x _ = _ => assert (X : exists y, x = "!"%char :: y) end.
  { match goal with |- exists y, (if ?b then _ else _) = _ => destruct b end; (eexists; reflexivity). }
  destruct X as [y X]. rewrite X in E. destruct (proj2 (visit_more debug tab) _ _ D2 _ _ _ E) as [z ->].
  eapply script_first; [exact R|reflexivity].
Qed.

Lemma plain_lit s : forallb (fun c => (32 <=? code c) && (code c <? 128) && negb (Ascii.eqb c """") && negb (Ascii.eqb c "\")) (lit s) = true ->
  plain_string (lit s).
Proof.
  intros H. rewrite forallb_forall in H. apply Forall_forall. intros c I. specialize (H c I).
  rewrite !andb_true_iff, !negb_true_iff, !Ascii.eqb_neq, Z.leb_le, Z.ltb_lt in H. tauto.
Qed.

Lemma text_lit s : forallb (fun c => (32 <=? code c) && (code c <? 128) && negb (Ascii.eqb c "<") && negb (Ascii.eqb c "&") && negb (Ascii.eqb c "]")) (lit s) = true -> plain_text (lit s).
Proof.
  intros H. rewrite forallb_forall in H. split.
    - apply Forall_forall. intros c I. specialize (H c I). rewrite !andb_true_iff, !negb_true_iff, !Ascii.eqb_neq, Z.leb_le, Z.ltb_lt in H.
      split; [right; right; tauto|tauto].
    - intros a b E. specialize (H "]"%char). rewrite E in H. assert (I : List.In "]"%char (a ++ lit "]]>" ++ b)) by (apply in_or_app; right; left; reflexivity).
      specialize (H I). discriminate H.
Qed.

(** A number with a fraction of zero is printed as an integer. *)
Theorem C84_fraction_refuted debug tab : exists body m t body' m',
  Forall python_stmt body /\ Forall python_stmt body' /\
  parse_script (lit "s") body = Tree m /\ print_script debug tab m = Some t /\
  script t (map norm_stmt body') /\ parse_script (lit "s") body' = Tree m' /\ bare_script m' <> bare_script m.
Proof.
  assert (O : position_ok (At 0 0)) by (split; cbn; lia).
  exists [SExpr (At 0 0) (PNum (At 0 0) (PyFloat (S754_finite false 4503599627370496 (-52))))].
  eexists. exists (lit "1" ++ [newline]), [SExpr (At 0 0) (PNum (At 0 0) (PyInt 1))]. eexists.
  split; [repeat constructor; cbn; lia|]. split; [repeat constructor; cbn; lia|].
  split; [vm_compute; reflexivity|]. split; [vm_compute; reflexivity|]. split; [|split; [vm_compute; reflexivity|discriminate]].
  change (lit "1" ++ [newline]) with (line_of 0 (show_int 1) ++ []). constructor; [|constructor].
  constructor. apply reads_int. lia.
Qed.

(** A string with quotes is printed as something else: here as the sum of two strings. *)
Theorem C84_string_refuted debug tab : exists body m t body' m',
  Forall python_stmt body /\ Forall python_stmt body' /\
  parse_script (lit "s") body = Tree m /\ print_script debug tab m = Some t /\
  script t (map norm_stmt body') /\ parse_script (lit "s") body' = Tree m' /\ bare_script m' <> bare_script m.
Proof.
  assert (O : position_ok (At 0 0)) by (split; cbn; lia).
  exists [SExpr (At 0 0) (PStr (At 0 0) (lit "a"" + ""b"))]. eexists.
  exists (lit """a"" + ""b""" ++ [newline]), [SExpr (At 0 0) (PBinOp (At 0 0) (PStr (At 0 0) (lit "a")) Add (PStr (At 0 0) (lit "b")))]. eexists.
  split. { constructor; [|constructor]. constructor; [exact O|]. constructor; [exact O|]. apply text_lit. reflexivity. }
  split. { constructor; [|constructor]. constructor; [exact O|]. constructor; [exact O|..]; (constructor; [exact O|apply text_lit; reflexivity]). }
  split; [vm_compute; reflexivity|]. split; [vm_compute; reflexivity|]. split; [|split; [vm_compute; reflexivity|discriminate]].
  change (lit """a"" + ""b""" ++ [newline]) with
    (line_of 0 ((lit """" ++ lit "a" ++ lit """") ++ lit " " ++ lit (snd (binary_operator Add)) ++ lit " " ++ (lit """" ++ lit "b" ++ lit """")) ++ []).
  constructor; [|constructor]. constructor. apply R_weaker with (l' := level_of Add); [cbn; lia|].
  apply R_binary; [discriminate|apply R_weaker with (l' := 12%nat); [cbn; lia|]; constructor; apply plain_lit; reflexivity..].
Qed.

(** With a tab size of zero different scripts are printed alike. *)
Theorem C84_tab_refuted debug : exists body m body' m' t,
  Forall python_stmt body /\ Forall stmt_survives body /\ Forall python_stmt body' /\ Forall stmt_survives body' /\
  parse_script (lit "s") body = Tree m /\ parse_script (lit "s") body' = Tree m' /\
  print_script debug 0 m = Some t /\ print_script debug 0 m' = Some t /\ bare_script m' <> bare_script m.
Proof.
  assert (O : position_ok (At 0 0)) by (split; cbn; lia).
  assert (I : forall s, (s = "a" \/ s = "b")%string -> identifier (lit s)).
  { intros s [-> | ->]; (eexists; exists []; split; [reflexivity|]; split; [right; left; cbv; split; discriminate|constructor]). }
  assert (N : forall s, (s = "a" \/ s = "b")%string -> ~ reserved (lit s)).
  { intros s [-> | ->] H; unfold reserved in H; cbn in H; intuition discriminate. }
  exists [SIf (At 0 0) (PName (At 0 0) (lit "a")) [SExpr (At 0 0) (PName (At 0 0) (lit "b"))] []; SExpr (At 0 0) (PName (At 0 0) (lit "b"))]. eexists.
  exists [SIf (At 0 0) (PName (At 0 0) (lit "a")) [SExpr (At 0 0) (PName (At 0 0) (lit "b")); SExpr (At 0 0) (PName (At 0 0) (lit "b"))] []]. eexists. eexists.
  split. { repeat (constructor; auto); discriminate. }
  split. { repeat constructor; apply N; auto. }
  split. { repeat (constructor; auto); discriminate. }
  split. { repeat constructor; apply N; auto. }
  split; [vm_compute; reflexivity|]. split; [vm_compute; reflexivity|]. split; [vm_compute; reflexivity|]. split; [vm_compute; reflexivity|discriminate].
Qed.

(** Release builds print functions without their names. *)
Theorem C84_function_refuted tab src p x y l b rest :
  print_script false tab (ModuleVertex src (FunctionDefinitionVertex p x l b :: rest)) =
  print_script false tab (ModuleVertex src (FunctionDefinitionVertex p y l b :: rest)).
Proof. reflexivity. Qed.

(** ** Cases *)

Definition o : pos := At 0 0.
Definition nm (s : string) : py_expr := PName o (lit s).

(** A script, its tree, and what is printed *)
Definition sample : list py_stmt :=
  [SAssign o [nm "a"] (PBinOp o (PNum o (PyLong (-5))) Pow (PUnaryOp o USub (PNum o (PyInt 2))));
   SIf o (PBoolOp o And [PCompare o (nm "a") [LtE] [PNum o (PyInt 0)]; PCall o (nm "f") None [] None None])
     [SWhile o (nm "a") [SExpr o (PCall o (nm "g") (Some [nm "a"; PStr o (lit "b c")]) [] None None)]
        [SAssign o [nm "b"] (PSubscript o (PAttribute o (nm "a") (lit "c")) (Some (nm "d")))]]
     [SExpr o (nm "c")];
   SExpr o (nm "d")].
Example C84_case debug : exists m, parse_script (lit "s") sample = Tree m /\
  print_script debug 4 m = Some (
    lit "a = (-5) ** (-(2))" ++ [newline] ++
    lit "if ((a) <= (0)) and (f()):" ++ [newline] ++
    lit "    while a:" ++ [newline] ++
    lit "        g(a, ""b c"")" ++ [newline] ++
    lit "    else:" ++ [newline] ++
    lit "        b = ((a).c)[d]" ++ [newline] ++
    lit "else:" ++ [newline] ++
    lit "    c" ++ [newline] ++
    lit "d" ++ [newline]).
Proof. eexists. split; [vm_compute; reflexivity|]. vm_compute. reflexivity. Qed.
Example C84_survives : Forall stmt_survives sample /\ Forall python_stmt sample.
Proof.
  assert (O : position_ok o) by (split; cbn; lia).
  assert (I : forall s, List.In s ["a"; "b"; "c"; "d"; "f"; "g"]%string -> identifier (lit s)).
  { intros s [<-|[<-|[<-|[<-|[<-|[<-|[]]]]]]]; (eexists; exists []; split; [reflexivity|]; split; [right; left; cbv; split; discriminate|constructor]). }
  assert (N : forall s, List.In s ["a"; "b"; "c"; "d"; "f"; "g"]%string -> ~ reserved (lit s)).
  { intros s [<-|[<-|[<-|[<-|[<-|[<-|[]]]]]]] H; unfold reserved in H; cbn in H; intuition discriminate. }
  assert (P : forall s, List.In s ["a"; "b"; "c"; "d"; "f"; "g"]%string -> python (nm s)).
  { intros s H. constructor; auto. }
  split.
  - repeat match goal with
    | |- Forall _ _ => constructor
    | |- stmt_survives _ => cbn [stmt_survives every survives nm]
    | |- _ /\ _ => split
    | |- True => exact I
    | |- ~ reserved _ => apply N; cbn; tauto
    | |- _ <> _ => discriminate
    end; try exact Logic.I.
    apply plain_lit. reflexivity.
  - assert (T : plain_text (lit "b c")).
    { apply text_lit. reflexivity. }
    repeat (constructor; try exact O; try discriminate; try lia; try (apply P; cbn; tauto); try (apply I; cbn; tauto); try exact T;
      try (intros ? [= <-])).
Qed.

Print Assumptions C84_reads.
Print Assumptions C84_unique.
Print Assumptions C84_aborts.
Print Assumptions C84_not_refuted.
Print Assumptions C84_fraction_refuted.
Print Assumptions C84_string_refuted.
Print Assumptions C84_tab_refuted.
Print Assumptions C84_function_refuted.
