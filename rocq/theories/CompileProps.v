(** * C80: the C++ code of a compiled module *)
From Coq Require Import String List Bool Arith Ascii Lia.
From Verif Require Import AstModel SymbolModel IoModel IoSpec IoProofs IoProps CompileModel CompileSpec.
Import ListNotations.
Open Scope string_scope.

(** The elements of a list with their numbers. *)
Definition numbered {X} (l : list X) : list (nat * X) := combine (List.seq 0 (length l)) l.

(** ** Texts *)

Lemma append_nil (s : string) : s ++ "" = s.
Proof. induction s; cbn; congruence. Qed.
Lemma append_assoc (a b c : string) : (a ++ b) ++ c = a ++ (b ++ c).
Proof. induction a; cbn; congruence. Qed.
Lemma occurrences_append a (s t : string) : occurrences a (s ++ t) = occurrences a s + occurrences a t.
Proof. induction s; cbn [append occurrences]; [reflexivity|]. rewrite IHs. lia. Qed.
Lemma prefix_append (s t : string) : prefix s (s ++ t) = true.
Proof. induction s as [|b s IH]; [destruct t; reflexivity|]. cbn. destruct (ascii_dec b b); [auto|congruence]. Qed.

Section Proofs.
Context {A : Type}.
Variable known : string -> bool.

(** The texts of what [_statement] grows by. *)
Fixpoint text (e : expr A) : string :=
  match e with
  | Name _ x => x
  | Operation _ f args =>
      "_operations->operation(""" ++ f ++ """)->execute(std::vector<std::shared_ptr<fern::Argument>>{" ++
      fold_right (fun e s => text e ++ s) "" args ++ "}))"
  | _ => ""
  end.

Lemma add_add s t c : add t (add s c) = add (s ++ t) c.
Proof. unfold add. cbn. rewrite append_assoc. reflexivity. Qed.

Lemma compile_plain (e : expr A) : plain e -> forall c c', compile_expr known e c = Some c' -> c' = add (text e) c.
Proof.
  induction e as [i x|i v|i f args IH|i e s _ _|i e m _] using expr_induction; cbn [plain compile_expr text]; intros P c c' H.
  - injection H as <-. reflexivity.
  - injection H as <-. unfold add. rewrite append_nil. destruct c; reflexivity.
  - destruct (known f); [|discriminate]. destruct P as [_ P].
    match type of H with context [visits _ args ?c0] => remember c0 as c1 end.
    assert (V : forall c1 c2, visits (compile_expr known) args c1 = Some c2 ->
              c2 = add (fold_right (fun e s => text e ++ s) "" args) c1).
    { clear -IH P. induction args as [|a args IHa]; cbn in *; intros c1 c2 H.
      - injection H as <-. unfold add. rewrite append_nil. destruct c1; reflexivity.
      - inversion IH; subst. destruct P as [Pa P]. destruct (compile_expr known a c1) as [c'|] eqn:E; [|discriminate].
        rewrite (IHa H3 P _ _ H), (H2 Pa _ _ E), add_add. reflexivity. }
    destruct (visits (compile_expr known) args c1) as [c2|] eqn:E; [|discriminate]. injection H as <-.
    rewrite (V _ _ E). subst c1. rewrite !add_add, !append_assoc. reflexivity.
  - injection H as <-. unfold add. rewrite append_nil. destruct c; reflexivity.
  - contradiction.
Qed.

Lemma compile_body (e : expr A) : forall c c', compile_expr known e c = Some c' -> body c' = body c.
Proof.
  induction e as [i x|i v|i f args IH|i e s _ _|i e m IH] using expr_induction; cbn [compile_expr]; intros c c' H.
  - injection H as <-. reflexivity.
  - injection H as <-. reflexivity.
  - destruct (known f); [|discriminate].
    match type of H with context [visits _ args ?c0] => remember c0 as c1 end.
    assert (V : forall c1 c2, visits (compile_expr known) args c1 = Some c2 -> body c2 = body c1).
    { clear -IH. induction args as [|a args IHa]; cbn in *; intros c1 c2 H.
      - injection H as <-. reflexivity.
      - inversion IH; subst. destruct (compile_expr known a c1) as [c'|] eqn:E; [|discriminate].
        rewrite (IHa H3 _ _ H). eauto. }
    destruct (visits (compile_expr known) args c1) as [c2|] eqn:E; [|discriminate]. injection H as <-.
    cbn. rewrite (V _ _ E). subst c1. reflexivity.
  - injection H as <-. reflexivity.
  - destruct (compile_expr known e c) as [c1|] eqn:E; [|discriminate]. injection H as <-. cbn. eauto.
Qed.

(** The text of an assigned expression. *)
Definition compiled (e : expr A) (t : string) : Prop :=
  exists c c', compile_expr known e (add "std::vector<std::shared_ptr<fern::Argument>> results(" (clear c)) = Some c' /\
    t = statement c'.

Lemma compile_stmts (m : list (stmt A)) : forall c c', visits (compile_stmt known) m c = Some c' ->
  exists ts, Forall2 (fun p t => compiled (snd p) t) (assigned m) ts /\
    body c' = (body c ++ flat_map (fun tp => [fst tp; ("std::shared_ptr<fern::Argument> " ++ fst (snd tp) ++ "(results[0])")%string])
                                  (combine ts (assigned m)))%list.
Proof.
  induction m as [|t m IH]; cbn [visits]; intros c c' H.
  - injection H as <-. exists []. cbn. rewrite app_nil_r. auto.
  - destruct (compile_stmt known t c) as [c1|] eqn:E; [|discriminate].
    destruct (IH _ _ H) as (ts & F & B). destruct t as [id x e|e|q tr fa|q tr fa]; cbn [compile_stmt] in E.
    + destruct (compile_expr known e _) as [c2|] eqn:E2; [|discriminate]. injection E as <-.
      exists (statement c2 :: ts). split; [constructor; auto; exists c, c2; auto|].
      rewrite B. cbn -[append]. rewrite (compile_body _ _ _ E2). cbn -[append]. rewrite <- !app_assoc. reflexivity.
    + exists ts. split; auto. rewrite B, (compile_body _ _ _ E). reflexivity.
    + injection E as <-. exists ts. auto.
    + injection E as <-. exists ts. auto.
Qed.

Lemma read_body l : forall i c, body (read_inputs l i c) =
  (body c ++ flat_map (fun p => show (Read (snd p) (fst p))) (combine (List.seq i (length l)) l))%list.
Proof.
  induction l as [|x l IH]; intros i c; cbn -[append]; [rewrite app_nil_r; reflexivity|].
  rewrite IH. cbn -[append]. rewrite <- app_assoc. reflexivity.
Qed.
Lemma write_body l : forall i c, body (write_outputs l i c) =
  (body c ++ flat_map (fun p => show (Put (fst p) (snd p))) (combine (List.seq i (length l)) l))%list.
Proof.
  induction l as [|x l IH]; intros i c; cbn -[append]; [rewrite app_nil_r; reflexivity|].
  rewrite IH. cbn -[append]. rewrite <- !app_assoc. reflexivity.
Qed.

Lemma targets_definitions (m : list (stmt A)) : flat_map targets m = definitions (events m).
Proof.
  assert (D : forall a b, definitions (a ++ b) = (definitions a ++ definitions b)%list).
  { induction a as [|[x|i x] a IH]; cbn; intros; rewrite ?IH; reflexivity. }
  assert (E : forall e : expr A, definitions (expr_events e) = []).
  { induction e as [i x|i v|i f args IH|i e s IH1 IH2|i e s IH] using expr_induction; cbn; auto.
    - induction IH; cbn; auto. rewrite D, H, IHIH. reflexivity.
    - rewrite D, IH1, IH2. reflexivity. }
  assert (F : forall l : list (stmt A), Forall (fun t => targets t = definitions (stmt_events t)) l ->
            flat_map targets l = definitions (flat_map stmt_events l)).
  { induction 1; cbn; auto. rewrite D. congruence. }
  apply F. apply Forall_forall. intros t _.
  induction t as [id x e|e|c t f Ht Hf|c t f Ht Hf] using stmt_induction; cbn.
  - rewrite D, E. reflexivity.
  - rewrite E. reflexivity.
  - rewrite !D, E, (F _ Ht), (F _ Hf). reflexivity.
  - rewrite !D, E, (F _ Ht), (F _ Hf). reflexivity.
Qed.
End Proofs.

(** ** What is read and what is written

    The arguments and results that are described are the inputs and outputs of the module (C50),
    in that order.  Input [i] is read from data source [i] and the last value of output [i] is
    written to data sync [i], if there is one.  In between are two texts for each assignment:
    expressions, ifs and whiles leave no trace. *)
Theorem C80_code (A : Type) (known : string -> bool) (m : list (stmt A)) (c : code) :
  compile_module known m = Some c ->
  NoDup (map fst (definitions (events m))) ->
  one_redefined (definitions (events m)) ->
  let ins := firsts (used_names (events m)) in
  let outs := map snd (lasts (definitions (events m))) in
  arguments c = String.concat ", " (map (fun x => "fern::DataDescription(""" ++ x ++ """)") ins) /\
  results c = String.concat ", " (map (fun x => "fern::DataDescription(""" ++ x ++ """)") outs) /\
  exists ts, length ts = length (assigned m) /\
    statements c =
      (flat_map (fun p => show (Read (snd p) (fst p))) (numbered ins) ++
       flat_map (fun tp => fst tp :: show (Take (snd tp))) (combine ts (map fst (assigned m))) ++
       flat_map (fun p => show (Put (fst p) (snd p))) (numbered outs))%list.
Proof.
  intros H N O ins outs. unfold compile_module in H.
  destruct (C50_outputs A m O) as (r & E & Eo). destruct (C50_inputs A m) as (r' & E' & Ei & _).
  rewrite E in E'. injection E' as <-. rewrite E in H.
  destruct (visits _ _ _) as [c1|] eqn:V; [|discriminate]. injection H as <-. cbn [arguments results statements].
  assert (Names : map (target_name m) (outputs r) = outs).
  { rewrite Eo. unfold outs. rewrite map_map. apply map_ext_in. intros [i x] I. cbn.
    assert (I' : In (i, x) (definitions (events m))).
    { clear -I. induction (definitions (events m)) as [|[j y] ds IH]; cbn in *; auto.
      destruct (existsb _ ds); [auto|]. destruct I; auto. }
    unfold target_name. rewrite targets_definitions. clear -I' N.
    induction (definitions (events m)) as [|[j y] ds IH]; [destruct I'|]. cbn. inversion N; subst.
    destruct (Nat.eqb_spec j i) as [->|D].
    - destruct I' as [I'|I']; [congruence|]. exfalso. apply H1. apply in_map_iff. exists (i, x). auto.
    - apply IH; auto. destruct I' as [I'|I']; [congruence|auto]. }
  rewrite Names, Ei. split; [reflexivity|]. split; [reflexivity|].
  destruct (compile_stmts known m _ _ V) as (ts & F & B). exists ts.
  assert (L : length ts = length (assigned m)) by (clear -F; induction F; cbn; auto).
  split; auto. rewrite write_body, B, read_body, Ei. cbn [body app]. unfold numbered. rewrite <- app_assoc.
  f_equal. f_equal. clear -L. revert ts L. induction (assigned m) as [|[x e] l IH]; intros [|t ts] L; try discriminate; auto.
  cbn -[append]. f_equal. f_equal. apply IH. cbn in L. lia.
Qed.
Print Assumptions C80_code.

(** The text of the function is these statements, each of them ended, on lines of their own. *)
Theorem C80_body (A : Type) (known : string -> bool) (m : list (stmt A)) (c : code) :
  compile_module known m = Some c ->
  run_body c = String.concat (String (Ascii.ascii_of_nat 10) "    ") (map (fun s => s ++ ";") (statements c))%string.
Proof.
  intros H. unfold compile_module in H. destruct (io_module m) as [r|]; [|discriminate].
  destruct (visits _ _ _) as [c1|]; [|discriminate]. injection H as <-. cbn [statements run_body].
  set (l := body _). clearbody l. set (n := String (Ascii.ascii_of_nat 10) "    "). clearbody n.
  destruct l as [|s l]; [reflexivity|]. revert s. induction l as [|u l IH]; intros s; [reflexivity|].
  assert (E : forall sep a b l, String.concat sep (a :: b :: l) = a ++ sep ++ String.concat sep (b :: l)) by reflexivity.
  cbn [map] in *. rewrite !E, !append_assoc, IH. reflexivity.
Qed.
Print Assumptions C80_body.

(** ** Scripts that are compiled right

    An assignment of an operation on at most one name (another one than that of the result) is
    compiled to the C++ that is meant, which writes the first result of the operation on what is
    read from the data source. *)
Theorem C80_single (A V : Type) (known : string -> bool) (ops : string -> list V -> list V)
    (t i : nat) (b f : string) (js : list nat) (xs : list string) (vs : list V) (v : V) (more : list V) (syncs : nat) :
  known f = true -> length js = length xs -> length xs <= 1 -> length vs = length xs -> ~ In b xs ->
  ops f vs = v :: more ->
  exists c p,
    compile_module (A := A) known [Assign t b (Operation i f (map (fun jx => Name (fst jx) (snd jx)) (combine js xs)))] = Some c /\
    statements c = flat_map show p /\
    run ops vs syncs p [] None = Some (if Nat.ltb 0 syncs then [(0, v)] else []).
Proof.
  intros K L1 L2 L3 N O.
  destruct xs as [|x [|y xs]]; [| |cbn in L2; lia]; destruct js as [|j [|j' js]]; try discriminate L1;
  destruct vs as [|u [|u' vs]]; try discriminate L3.
  - eexists. exists [Execute f []; Take b; Put 0 b]. split; [|split].
    + unfold compile_module. cbn -[append]. rewrite K. cbn -[append]. reflexivity.
    + cbn -[append]. unfold target_name. cbn -[append]. rewrite Nat.eqb_refl. cbn -[append]. rewrite !append_assoc. reflexivity.
    + cbn. rewrite O. cbn. rewrite String.eqb_refl. reflexivity.
  - assert (D : String.eqb x b = false) by (apply String.eqb_neq; intros ->; apply N; cbn; auto).
    eexists. exists [Read x 0; Execute f [x]; Take b; Put 0 b]. split; [|split].
    + unfold compile_module. cbn -[append]. rewrite K. cbn -[append]. reflexivity.
    + cbn -[append]. unfold target_name. cbn -[append]. rewrite Nat.eqb_refl. cbn -[append]. rewrite !append_assoc. reflexivity.
    + cbn. rewrite String.eqb_refl. cbn. rewrite O. cbn. rewrite D. cbn. rewrite String.eqb_refl. reflexivity.
Qed.
Print Assumptions C80_single.

(** ** Scripts that are not

    In scripts without attributes, parentheses are balanced in all texts and the variable [results]
    is declared at most once, as they must be in C++, if and only if there is no assignment at the
    level of the module, or one: that of an operation whose arguments are not operations. *)
Section Only.
Context {A : Type}.
Variable known : string -> bool.

(** The number of operations that leave a text. *)
Fixpoint operations_in (e : expr A) : nat :=
  match e with
  | Operation _ _ args => S (fold_right (fun e n => operations_in e + n) 0 args)
  | _ => 0
  end.

Lemma text_parentheses (e : expr A) : plain e ->
  occurrences ")"%char (text e) = occurrences "("%char (text e) + operations_in e.
Proof.
  induction e as [i x|i v|i f args IH|i e s _ _|i e m _] using expr_induction; cbn [plain text operations_in]; intros P;
    try reflexivity.
  - destruct P as [-> ->]. reflexivity.
  - destruct P as [[F1 F2] P]. rewrite !occurrences_append, F1, F2.
    assert (Q : occurrences ")"%char (fold_right (fun e s => text e ++ s) "" args) =
                occurrences "("%char (fold_right (fun e s => text e ++ s) "" args) + fold_right (fun e n => operations_in e + n) 0 args).
    { clear -IH P. induction args as [|a args IHa]; cbn [fold_right] in *; auto.
      inversion IH; subst. destruct P as [Pa P]. rewrite !occurrences_append, (H1 Pa), (IHa H2 P). lia. }
    rewrite Q. set (n := occurrences "("%char _) at 2. set (n' := occurrences _ (fold_right _ _ _)). cbn. lia.
Qed.

Lemma one_operation_spec (e : expr A) : plain e -> operations_in e = 1 <-> one_operation e.
Proof.
  intros P. split.
  - destruct e; cbn; try discriminate. intros H. injection H as H. exists id, name, args. split; auto.
    intros a I. induction args as [|b args IH]; [destruct I|]. cbn in H.
    destruct I as [->|I]; [destruct a; cbn in *; auto; lia|]. apply IH; auto; [|lia]. cbn in P. cbn. tauto.
  - intros (i & f & args & -> & H). cbn. f_equal. clear P. induction args as [|b args IH]; auto. cbn.
    rewrite IH; [|intros; apply H; cbn; auto]. specialize (H b (or_introl eq_refl)). destruct b; cbn in *; auto. discriminate.
Qed.

Lemma decimal_plain n : plain_name (decimal n).
Proof.
  unfold decimal, plain_name. induction (Nat.to_uint n); cbn; auto.
Qed.
Lemma read_balanced i x : plain_name x -> forall s, In s (show (Read x i)) -> balanced s /\ declares_results s = false.
Proof.
  intros [P Q] s [<-|[]]. split; [|reflexivity]. unfold balanced. destruct (decimal_plain i) as [D D'].
  rewrite !occurrences_append, P, Q, D, D'. reflexivity.
Qed.
Lemma take_balanced x : plain_name x -> forall s, In s (show (Take x)) -> balanced s /\ declares_results s = false.
Proof.
  intros [P Q] s [<-|[]]. split; [|reflexivity]. unfold balanced. rewrite !occurrences_append, P, Q. reflexivity.
Qed.
Lemma put_balanced i x : plain_name x -> forall s, In s (show (Put i x)) -> balanced s /\ declares_results s = false.
Proof.
  intros [P Q] s I. destruct (decimal_plain i) as [D D'].
  destruct I as [<-|[<-|[<-|[]]]]; (split; [|reflexivity]); unfold balanced; rewrite ?occurrences_append, ?P, ?Q, ?D, ?D'; reflexivity.
Qed.

Lemma compiled_balanced (e : expr A) t : plain e -> compiled known e t ->
  declares_results t = true /\ (balanced t <-> one_operation e).
Proof.
  intros P (c & c' & E & ->). rewrite (compile_plain _ _ P _ _ E), add_add. cbn [statement add clear].
  set (w := "std::vector<std::shared_ptr<fern::Argument>> results("). change ("" ++ w ++ text e) with (w ++ text e).
  split; [apply prefix_append|]. unfold balanced. rewrite !occurrences_append, (text_parentheses e P), <- (one_operation_spec e P).
  set (n := occurrences _ (text e)). cbn. lia.
Qed.
End Only.

Theorem C80_only (A : Type) (known : string -> bool) (m : list (stmt A)) (c : code) :
  compile_module known m = Some c ->
  (forall x e, In (x, e) (assigned m) -> plain e) ->
  (forall x, In x (used_names (events m)) \/ In x (map snd (definitions (events m))) -> plain_name x) ->
  (forall s, In s (statements c) -> balanced s) /\ length (filter declares_results (statements c)) <= 1 <->
  assigned m = [] \/ exists x e, assigned m = [(x, e)] /\ one_operation e.
Proof.
  intros H P N. unfold compile_module in H.
  destruct (C50_inputs A m) as (r & E & _ & _ & Ei). rewrite E in H.
  destruct (visits _ _ _) as [c1|] eqn:V; [|discriminate]. injection H as <-. cbn [statements].
  destruct (compile_stmts known m _ _ V) as (ts & F & B). rewrite write_body, B, read_body. cbn [body app].
  assert (T : forall x, In x (map (target_name m) (outputs r)) -> plain_name x).
  { intros x I. apply in_map_iff in I as (i & <- & _). unfold target_name. rewrite targets_definitions.
    destruct (find _ _) as [[j y]|] eqn:Ef; [|split; reflexivity]. apply N. right.
    apply find_some in Ef as [Ef _]. apply in_map_iff. exists (j, y). auto. }
  assert (X : forall x e, In (x, e) (assigned m) -> plain_name x).
  { intros x e I. apply N. right. rewrite <- targets_definitions. clear -I.
    induction m as [|t m IH]; [destruct I|]. cbn in *. rewrite map_app. apply in_or_app.
    apply in_app_or in I as [I|I]; [|auto]. left. destruct t; cbn in *; try contradiction.
    destruct I as [I|[]]. injection I as -> ->. auto. }
  set (reads := flat_map (fun p => show (Read (snd p) (fst p))) _).
  set (writes := flat_map (fun p => show (Put (fst p) (snd p))) _).
  set (texts := flat_map _ (combine ts (assigned m))).
  assert (R : forall s, In s reads -> balanced s /\ declares_results s = false).
  { intros s I. apply in_flat_map in I as ([i x] & I & J). apply (read_balanced i x); auto.
    apply in_combine_r in I. apply N. left. apply Ei. auto. }
  assert (W : forall s, In s writes -> balanced s /\ declares_results s = false).
  { intros s I. apply in_flat_map in I as ([i x] & I & J). apply (put_balanced i x); auto.
    apply in_combine_r in I. apply T. auto. }
  assert (Z : forall l, (forall s, In s l -> balanced s /\ declares_results s = false) -> filter declares_results l = []).
  { induction l as [|s l IH]; intros Hl; auto. cbn. rewrite (proj2 (Hl s (or_introl eq_refl))). apply IH. intros; apply Hl; cbn; auto. }
  assert (Y : length (filter declares_results texts) = length (assigned m) /\
              ((forall s, In s texts -> balanced s) <-> forall x e, In (x, e) (assigned m) -> one_operation e)).
  { clear -F P X. unfold texts. clear texts. induction F as [|[x e] t l ts C F IH]; cbn [combine flat_map length app].
    - split; auto. split; intros _; [intros ? ? []|intros ? []].
    - destruct IH as [L IH]; [intros; eapply P; cbn; eauto|intros; eapply X; cbn; eauto|].
      destruct (compiled_balanced known e t (P x e (or_introl eq_refl)) C) as [D Bt].
      destruct (take_balanced x (X x e (or_introl eq_refl)) _ (or_introl eq_refl)) as [Tb Td].
      cbn [fst snd filter]. rewrite D, Td. cbn [length]. split; [f_equal; exact L|]. split.
      + intros Q x' e' [I|I].
        * injection I as <- <-. apply Bt, Q. cbn; auto.
        * apply (proj1 IH) with x'; auto. intros s Is. apply Q. cbn; auto.
      + intros Q s [<-|[<-|Is]]; auto.
        * apply Bt. apply Q with x. cbn; auto.
        * apply IH; auto. intros x' e' I. apply Q with x'. cbn; auto. }
  destruct Y as [L Y]. rewrite !filter_app, (Z reads R), (Z writes W), app_nil_r. cbn [app]. rewrite L. split.
  - intros [Q Len]. assert (Q' : forall x e, In (x, e) (assigned m) -> one_operation e).
    { apply Y. intros s I. apply Q. apply in_or_app. left. apply in_or_app. auto. }
    destruct (assigned m) as [|[x e] [|p l]]; [auto| |cbn in Len; lia].
    right. exists x, e. split; auto. apply Q' with x. cbn; auto.
  - intros Q. split.
    + intros s I. apply in_app_or in I as [I|I]; [|apply W; auto].
      apply in_app_or in I as [I|I]; [apply R; auto|]. apply Y; auto. intros x e Ia.
      destruct Q as [Q|(x' & e' & Q & O)]; rewrite Q in Ia; [destruct Ia|].
      destruct Ia as [Ia|[]]. injection Ia as <- <-. auto.
    + destruct Q as [->|(x & e & -> & _)]; cbn; lia.
Qed.
Print Assumptions C80_only.

(** The arguments of such an operation: their names one after the other without a comma, and
    nothing for numbers, strings and subscripts. *)
Theorem C80_arguments (A : Type) (known : string -> bool) (t i : nat) (b f : string) (args : list (expr A)) (c : code) :
  compile_module known [Assign t b (Operation i f args)] = Some c ->
  plain (Operation i f args) -> (forall a, In a args -> is_operation a = false) ->
  In ("std::vector<std::shared_ptr<fern::Argument>> results(_operations->operation(""" ++ f ++
      """)->execute(std::vector<std::shared_ptr<fern::Argument>>{" ++
      String.concat "" (flat_map (fun a => match a with Name _ x => [x] | _ => [] end) args) ++ "}))")
     (statements c).
Proof.
  intros H P O. unfold compile_module in H. destruct (io_module _) as [r|]; [|discriminate].
  destruct (visits _ _ _) as [c1|] eqn:V; [|discriminate]. injection H as <-. cbn [statements].
  destruct (compile_stmts known _ _ _ V) as (ts & F & B). rewrite write_body, B. apply in_or_app. left. apply in_or_app. right.
  cbn [assigned flat_map app] in *. inversion F as [|p s l l' C F' E1 E2]. subst. inversion F'. subst. cbn [combine flat_map app fst snd].
  left. destruct C as (c2 & c3 & E & ->). cbn [snd] in E. rewrite (compile_plain _ _ P _ _ E), add_add.
  cbn [add clear statement text].
  assert (T : fold_right (fun (e : expr A) s => text e ++ s) "" args =
              String.concat "" (flat_map (fun a => match a with Name _ x => [x] | _ => [] end) args)).
  { clear -O. assert (Q : forall x l, String.concat "" (x :: l) = x ++ String.concat "" l).
    { intros x [|y l]; cbn; [rewrite append_nil|]; reflexivity. }
    induction args as [|a args IH]; auto. cbn [fold_right flat_map].
    rewrite IH by (intros; apply O; cbn; auto). specialize (O a (or_introl eq_refl)).
    destruct a; cbn [text app]; try reflexivity; [|discriminate]. rewrite Q. reflexivity. }
  rewrite T. reflexivity.
Qed.
Print Assumptions C80_arguments.

(** The text of an attribute that is assigned is empty, whatever it is an attribute of. *)
Theorem C80_attribute (A : Type) (known : string -> bool) (t i : nat) (b member : string) (e : expr A) (c : code) :
  compile_module known [Assign t b (Attribute i e member)] = Some c ->
  In "" (statements c) /\ filter declares_results (statements c) = [].
Proof.
  intros H. unfold compile_module in H. destruct (io_module _) as [r|]; [|discriminate].
  destruct (visits _ _ _) as [c1|] eqn:V; [|discriminate]. injection H as <-. cbn [statements].
  destruct (compile_stmts known _ _ _ V) as (ts & F & B). rewrite write_body, B, read_body. cbn [body app].
  cbn [assigned flat_map app] in *. inversion F as [|p s l l' C F' E1 E2]. subst. inversion F'. subst.
  cbn [combine flat_map app fst snd] in *. destruct C as (c2 & c3 & E & ->). cbn [snd compile_expr] in E.
  destruct (compile_expr known e _) as [c4|]; [|discriminate]. injection E as <-. cbn [statement clear].
  split; [apply in_or_app; left; apply in_or_app; right; left; reflexivity|].
  assert (Z : forall l, (forall s, In s l -> declares_results s = false) -> filter declares_results l = []).
  { induction l as [|s l IH]; intros Hl; auto. cbn -[declares_results]. rewrite (Hl s (or_introl eq_refl)). apply IH. intros; apply Hl; cbn; auto. }
  apply Z. intros s I. apply in_app_or in I as [I|I]; [apply in_app_or in I as [I|I]|].
  - apply in_flat_map in I as ([j x] & _ & [<-|[]]). reflexivity.
  - destruct I as [<-|[<-|[]]]; reflexivity.
  - apply in_flat_map in I as ([j x] & _ & [<-|[<-|[<-|[]]]]); reflexivity.
Qed.
Print Assumptions C80_attribute.

(** ** Cases *)

Definition every : string -> bool := fun _ => true.
(** [b = abs(a)] *)
Definition good : list (stmt nat) := [Assign 1 "b" (Operation 2 "abs" [Name 3 "a"])].

Example C80_code_case :
  exists c, compile_module every good = Some c /\
    NoDup (map fst (definitions (events good))) /\ one_redefined (definitions (events good)) /\
    arguments c = "fern::DataDescription(""a"")" /\ results c = "fern::DataDescription(""b"")" /\
    statements c =
      ["std::shared_ptr<fern::Argument> a(data_sources[0]->read());";
       "std::vector<std::shared_ptr<fern::Argument>> results(_operations->operation(""abs"")->execute(std::vector<std::shared_ptr<fern::Argument>>{a}))";
       "std::shared_ptr<fern::Argument> b(results[0])";
       "if(0 < data_syncs.size()) {"; "    data_syncs[0]->write(*b);"; "}"].
Proof.
  eexists. split; [vm_compute; reflexivity|]. split; [|split; [|repeat split]].
  - repeat constructor. intros [].
  - exists "b". intros y D. change (count_occ string_dec ["b"] y <= 1). cbn [count_occ]. destruct (string_dec "b" y); auto.
Qed.
Example C80_single_case :
  exists c p, compile_module every good = Some c /\ statements c = flat_map show p /\
    run (fun _ l => map S l) [4] 1 p [] None = Some [(0, 5)].
Proof. apply (C80_single nat nat every (fun _ l => map S l) 1 2 "b" "abs" [3] ["a"] [4] 5 [] 1); auto. cbn. intros [H|[]]; discriminate. Qed.
Example C80_only_case :
  exists c, compile_module every good = Some c /\
    ((forall s, In s (statements c) -> balanced s) /\ length (filter declares_results (statements c)) <= 1).
Proof.
  eexists. split; [vm_compute; reflexivity|]. apply (C80_only nat every good); [vm_compute; reflexivity| | |].
  - intros x e [H|[]]. injection H as <- <-. cbn. repeat split.
  - intros x [[<-|[]]|[<-|[]]]; split; reflexivity.
  - right. eexists _, _. split; [reflexivity|]. eexists _, _, _. split; [reflexivity|]. intros a [<-|[]]. reflexivity.
Qed.

(** ** Compiled modules do not do what the script does

    [b = add(a, c)] passes one variable, [ac], that is not declared; [b = add(a, 2)] passes [a] only;
    [b = a] and [b = abs(abs(a))] have unbalanced parentheses; [a = abs(a)] declares [a] twice; two
    assignments declare [results] twice; [write(a, "x")] is left out, and so is what is in an if. *)
Theorem C80_refuted :
  (exists c, compile_module every [Assign (A := nat) 1 "b" (Operation 2 "add" [Name 3 "a"; Name 4 "c"])] = Some c /\
     In "std::vector<std::shared_ptr<fern::Argument>> results(_operations->operation(""add"")->execute(std::vector<std::shared_ptr<fern::Argument>>{ac}))" (statements c)) /\
  (exists c, compile_module every [Assign 1 "b" (Operation 2 "add" [Name 3 "a"; Const 4 2])] = Some c /\
     In "std::vector<std::shared_ptr<fern::Argument>> results(_operations->operation(""add"")->execute(std::vector<std::shared_ptr<fern::Argument>>{a}))" (statements c)) /\
  (exists c s, compile_module every [Assign (A := nat) 1 "b" (Name 2 "a")] = Some c /\ In s (statements c) /\ ~ balanced s) /\
  (exists c s, compile_module every [Assign (A := nat) 1 "b" (Operation 2 "abs" [Operation 3 "abs" [Name 4 "a"]])] = Some c /\
     In s (statements c) /\ ~ balanced s) /\
  (exists c, compile_module every [Assign (A := nat) 1 "a" (Operation 2 "abs" [Name 3 "a"])] = Some c /\
     In "std::shared_ptr<fern::Argument> a(data_sources[0]->read());" (statements c) /\
     In "std::shared_ptr<fern::Argument> a(results[0])" (statements c)) /\
  (exists c, compile_module every
       [Assign (A := nat) 1 "b" (Operation 2 "abs" [Name 3 "a"]); Assign 4 "c" (Operation 5 "abs" [Name 6 "a"])] = Some c /\
     length (filter declares_results (statements c)) = 2) /\
  (exists c, compile_module every [Expr (Operation 2 "write" [Name 3 "a"; Const 4 0])] = Some c /\
     statements c = ["std::shared_ptr<fern::Argument> a(data_sources[0]->read());"]) /\
  (exists c, compile_module every [If (Name 2 "a") [Assign 3 "b" (Operation 4 "abs" [Name 5 "a"])] [@Expr nat (Name 6 "a")]] = Some c /\
     statements c =
       ["std::shared_ptr<fern::Argument> a(data_sources[0]->read());";
        "if(0 < data_syncs.size()) {"; "    data_syncs[0]->write(*b);"; "}"]).
Proof.
  repeat split.
  1-2, 5-8: eexists; split; [vm_compute; reflexivity|cbn [statements]; cbn; auto].
  - eexists _, _. split; [vm_compute; reflexivity|]. split; [right; left; reflexivity|]. discriminate.
  - eexists _, _. split; [vm_compute; reflexivity|]. split; [right; left; reflexivity|]. discriminate.
Qed.
Print Assumptions C80_refuted.
