(** * Proofs about printed scripts *)

From Coq Require Import String Ascii List Bool ZArith SpecFloat Lia.
From Verif Require Import DigitProofs IntsModel FloatModel StringModel DecimalModel ScriptModel ScriptSpec
  ScriptProofs PrintModel PrintSpec.
Import ListNotations.
Open Scope Z_scope.

(** ** Trees that are printed well *)

Definition bin (n s : string) : Prop :=
  (exists op, binary_operator op = (n, s)) \/ (exists op, boolean_operator op = (n, s)) \/
  (exists op, comparison_operator op n s).

Inductive good : vertex -> Prop :=
| G_name p x : identifier x -> ~ reserved x -> good (NameVertex p x)
| G_string p s : plain_string s -> good (StringVertex p s)
| G_int p z : good (NumberVertex p (NumberInt S64 z))
| G_call p x l : identifier x -> ~ reserved x -> goods l -> good (FunctionCallVertex p x l)
| G_unary p op v : op <> Not -> good v -> good (op_vertex p (unary_operator op) [v])
| G_binary p n s v w : bin n s -> good v -> good w -> good (op_vertex p (n, s) [v; w])
| G_subscript p v w : good v -> good w -> good (SubscriptVertex p v w)
| G_attribute p v x : good v -> identifier x -> ~ reserved x -> good (AttributeVertex p v x)
with goods : list vertex -> Prop :=
| G_nil : goods []
| G_cons v l : good v -> goods l -> goods (v :: l).

Scheme good_mind := Induction for good Sort Prop
with goods_mind := Induction for goods Sort Prop.
Combined Scheme good_mutual from good_mind, goods_mind.
Scheme denotes_mind := Induction for denotes Sort Prop
with denotes_all_mind := Induction for denotes_all Sort Prop.
Combined Scheme denotes_mutual from denotes_mind, denotes_all_mind.

(** What is printed *)
Section Sep.
Context {X : Type}.
Variable f : X -> text.
Fixpoint sep (l : list X) : text :=
  match l with
  | [] => []
  | x :: l' => match l' with [] => f x | _ => f x ++ lit ", " ++ sep l' end
  end.
End Sep.
Fixpoint pe (v : vertex) : text :=
  match v with
  | NameVertex _ x => x
  | StringVertex _ s => quote :: s ++ [quote]
  | NumberVertex _ n => show_number n
  | FunctionCallVertex _ x l => x ++ lit "(" ++ sep pe l ++ lit ")"
  | OperatorVertex _ _ s l =>
      match l with
      | [e] => s ++ lit "(" ++ pe e ++ lit ")"
      | [e; f] => lit "(" ++ pe e ++ lit ") " ++ s ++ lit " (" ++ pe f ++ lit ")"
      | _ => []
      end
  | SubscriptVertex _ e s => lit "(" ++ pe e ++ lit ")" ++ lit "[" ++ pe s ++ lit "]"
  | AttributeVertex _ e m => lit "(" ++ pe e ++ lit ")" ++ lit "." ++ m
  end.

Lemma show_good debug :
  (forall v, good v -> show_vertex debug v = Some (pe v)) /\
  (forall l, goods l -> separated (show_vertex debug) l = Some (sep pe l)).
Proof.
  apply good_mutual; intros; cbn [show_vertex pe op_vertex]; unfold visit_expressions;
    repeat match goal with H : _ = Some _ |- _ => rewrite H; clear H end; try reflexivity.
  cbn [separated sep]. destruct l; [assumption|]. rewrite H0, H. reflexivity.
Qed.

(** ** What is printed can be read *)

Lemma show_negative z : 0 < z -> show_int (- z) = lit "-" ++ show_int z.
Proof. destruct z; try lia. reflexivity. Qed.
Lemma show_digits z : 0 <= z -> Forall digit (show_int z).
Proof.
  destruct z as [|p|p]; try lia.
  - intros _. constructor; [cbv; split; discriminate|constructor].
  - intros _. apply (proj1 (show_pos p)).
Qed.

Lemma symbols op n m : comparison_operator op n m -> bin n m.
Proof. right. right. eauto. Qed.

Lemma norm_moved p e : norm (moved p e) = norm e.
Proof. destruct e; reflexivity. Qed.
Lemma survives_moved p e : survives (moved p e) <-> survives e.
Proof. destruct e; reflexivity. Qed.
Lemma python_moved p e : position_ok p -> python e -> python (moved p e).
Proof. intros P W. destruct W; cbn [moved]; constructor; assumption. Qed.

Lemma reads_int z : - 2 ^ 31 <= z < 2 ^ 31 -> reads 0 (show_int z) (PNum nowhere (PyInt z)).
Proof.
  intros B. destruct (Z_lt_ge_dec z 0) as [N|N].
  - apply R_weaker with (l' := 10%nat); [lia|]. assert (E : exists y, z = - y /\ 0 < y < 2 ^ 63) by (exists (- z); lia).
    destruct E as (y & -> & Y). rewrite show_negative by lia. apply R_negative, Y.
  - apply R_weaker with (l' := 12%nat); [lia|]. apply R_int. lia.
Qed.

Lemma plain_brackets t e : reads 0 t e -> forall l, (l <= 12)%nat -> reads l (lit "(" ++ t ++ lit ")") e.
Proof. intros R l L. apply R_weaker with (l' := 12%nat); [exact L|]. apply R_brackets, R. Qed.

Ltac norm_text := cbn [pe op_vertex fst snd]; rewrite <- ?app_assoc; try reflexivity.

Lemma denotes_good :
  (forall s a e v, denotes s a e v -> python e -> survives e -> good v /\ reads 0 (pe v) (norm e)) /\
  (forall s a l w, denotes_all s a l w -> Forall python l -> every survives l ->
     goods w /\ (l <> [] -> list_of (sep pe w) (map norm l))).
Proof.
  apply denotes_mutual.
  - intros s a p x W S. inversion W; subst. split; [constructor; assumption|].
    apply R_weaker with (l' := 12%nat); [lia|]. constructor; assumption.
  - intros s a p z B W S. split; [constructor|]. cbn [pe show_number norm norm_number].
    apply reads_int. exact B.
  - intros s a p z B W S. split; [constructor|]. cbn [pe show_number norm norm_number].
    apply reads_int. exact B.
  - intros s a p x y _ _ [].
  - intros s a p t W S. split; [constructor; exact S|]. apply R_weaker with (l' := 12%nat); [lia|].
    apply R_string. exact S.
  - intros s a p q f W [S _]. inversion W; subst. match goal with H : python (PName _ _) |- _ => inversion H; subst end.
    split; [constructor; [assumption|exact S|constructor]|].
    apply R_weaker with (l' := 12%nat); [lia|]. apply R_call_none. constructor; assumption.
  - intros s a p q f l v N D IH W [S T]. inversion W; subst.
    match goal with H : python (PName _ _) |- _ => inversion H; subst end.
    destruct IH as [G L]; [auto|exact T|].
    split; [constructor; assumption|]. apply R_weaker with (l' := 12%nat); [lia|].
    apply R_call; [constructor; assumption|]. apply L, N.
  - intros s a p op e v D IH W [S T]. inversion W; subst. destruct IH as [G R]; [assumption|exact T|].
    split; [constructor; assumption|]. cbn [norm].
    apply R_weaker with (l' := 10%nat); [lia|].
    replace (pe (op_vertex p (unary_operator op) [v])) with
      (lit (snd (unary_operator op)) ++ (lit "(" ++ pe v ++ lit ")")) by norm_text.
    apply R_sign; [exact S|apply plain_brackets; [exact R|lia]|].
    intros _ c u [= <- _] [A B]. cbv in A, B. apply A. reflexivity.
  - intros s a p op e f v w D IH D' IH' W [S T]. inversion W; subst.
    destruct IH as [G R]; [assumption|exact S|]. destruct IH' as [G' R']; [assumption|exact T|].
    split.
    { destruct (binary_operator op) as [n m] eqn:E. constructor; [left; eauto|assumption..]. }
    cbn [norm]. apply R_weaker with (l' := level_of op); [lia|].
    replace (pe (op_vertex p (binary_operator op) [v; w])) with
      ((lit "(" ++ pe v ++ lit ")") ++ lit " " ++ lit (snd (binary_operator op)) ++ lit " " ++
       (lit "(" ++ pe w ++ lit ")")) by norm_text.
    destruct op; try (apply (R_binary _ _ _ _ _); [discriminate|apply plain_brackets; [assumption|cbn; lia]..]).
    apply (R_power (lit "(" ++ pe v ++ lit ")") (norm e) (lit "(" ++ pe w ++ lit ")"));
      (apply plain_brackets; [assumption|lia]).
  - intros s a p op e f v w D IH D' IH' W S. inversion W; subst. destruct S as (S & T & _).
    match goal with H : Forall python _ |- _ => apply Forall_cons_iff in H; destruct H as [W1 H]; apply Forall_cons_iff in H; destruct H as [W2 _] end.
    destruct IH as [G R]; [assumption|exact S|]. destruct IH' as [G' R']; [assumption|exact T|].
    split.
    { destruct (boolean_operator op) as [n m] eqn:E. constructor; [right; left; eauto|assumption..]. }
    cbn [norm map].
    replace (pe (op_vertex p (boolean_operator op) [v; w])) with
      ((lit "(" ++ pe v ++ lit ")") ++ lit " " ++ lit (snd (boolean_operator op)) ++ lit " " ++
       (lit "(" ++ pe w ++ lit ")")) by norm_text.
    destruct op.
    + apply R_weaker with (l' := 1%nat); [lia|].
      apply (R_and (lit "(" ++ pe v ++ lit ")") (norm e) (lit "(" ++ pe w ++ lit ")"));
      (apply plain_brackets; [assumption|lia]).
    + apply (R_or (lit "(" ++ pe v ++ lit ")") (norm e) (lit "(" ++ pe w ++ lit ")"));
      (apply plain_brackets; [assumption|lia]).
  - intros s a p op n m e f v w C D IH D' IH' W S. inversion W; subst. destruct S as (S & T & _).
    match goal with H : Forall python _ |- _ => apply Forall_cons_iff in H; destruct H as [W2 _] end.
    destruct IH as [G R]; [assumption|exact S|]. destruct IH' as [G' R']; [assumption|exact T|].
    split; [constructor; [eapply symbols, C|assumption..]|].
    cbn [norm map].
    replace (pe (op_vertex p (n, m) [v; w])) with
      ((lit "(" ++ pe v ++ lit ")") ++ lit " " ++ lit m ++ lit " " ++ (lit "(" ++ pe w ++ lit ")")) by norm_text.
    apply R_weaker with (l' := 3%nat); [lia|].
    eapply R_compare; [exact C|apply plain_brackets; [assumption|lia]..].
  - intros a p e i v w D IH D' IH' W [S T]. inversion W; subst.
    destruct IH as [G R]; [assumption|exact S|]. destruct IH' as [G' R']; [auto|exact T|].
    split; [constructor; assumption|]. cbn [norm option_map]. apply R_weaker with (l' := 12%nat); [lia|].
    replace (pe (SubscriptVertex p v w)) with
      ((lit "(" ++ pe v ++ lit ")") ++ lit "[" ++ pe w ++ lit "]") by norm_text.
    apply R_subscript; [apply plain_brackets; [assumption|lia]|exact R'].
  - intros s p e x v D IH W [S T]. inversion W; subst.
    destruct IH as [G R]; [assumption|exact S|].
    split; [constructor; assumption|]. cbn [norm option_map]. apply R_weaker with (l' := 12%nat); [lia|].
    replace (pe (AttributeVertex p v x)) with
      ((lit "(" ++ pe v ++ lit ")") ++ lit "." ++ x) by norm_text.
    apply R_attribute; [apply plain_brackets; [assumption|lia]|assumption..|].
    intros _. exists (lit "(" ++ pe v). rewrite <- app_assoc. reflexivity.
  - intros s a _ _. split; [constructor|congruence].
  - intros s a e l v w D IH D' IH' W [S T]. apply Forall_cons_iff in W. destruct W as [W1 W2].
    destruct IH as [G R]; [assumption|exact S|]. destruct IH' as [G' R']; [auto|exact T|].
    split; [constructor; assumption|]. intros _. cbn [map].
    destruct l as [|e' l].
    + inversion D'; subst. constructor. exact R.
    + inversion D'; subst. change (sep pe (v :: v0 :: w0)) with (pe v ++ lit ", " ++ sep pe (v0 :: w0)).
      constructor; [exact R|]. apply R'. discriminate.
Qed.

(** ** Statements *)

Inductive good_stmt : statement_vertex -> Prop :=
| G_expr e : good e -> good_stmt (ExpressionVertex e)
| G_assign p q x e : identifier x -> ~ reserved x -> good e ->
    good_stmt (AssignmentVertex p (NameVertex q x) e)
| G_if p c t f : good c -> t <> [] -> good_stmts t -> good_stmts f -> good_stmt (IfVertex p c t f)
| G_while p c t f : good c -> t <> [] -> good_stmts t -> good_stmts f ->
    good_stmt (WhileVertex p c t f)
with good_stmts : list statement_vertex -> Prop :=
| G_stmts_nil : good_stmts []
| G_stmts_cons s l : good_stmt s -> good_stmts l -> good_stmts (s :: l).
Scheme good_stmt_mind := Induction for good_stmt Sort Prop
with good_stmts_mind := Induction for good_stmts Sort Prop.
Combined Scheme good_stmt_mutual from good_stmt_mind, good_stmts_mind.
Scheme denotes_stmt_mind := Induction for denotes_stmt Sort Prop
with denotes_stmts_mind := Induction for denotes_stmts Sort Prop.
Combined Scheme denotes_stmt_mutual from denotes_stmt_mind, denotes_stmts_mind.

Section Tab.
Variable tab : nat.

Definition else_part (k : nat) (t : text) (f : list statement_vertex) : text :=
  match f with [] => [] | _ => line_of (k * tab) (lit "else:") ++ t end.
Fixpoint ps (k : nat) (s : statement_vertex) : text :=
  match s with
  | ExpressionVertex e => line_of (k * tab) (pe e)
  | AssignmentVertex _ t e => line_of (k * tab) (pe t ++ lit " = " ++ pe e)
  | IfVertex _ c t f =>
      line_of (k * tab) (lit "if " ++ pe c ++ lit ":") ++ flat_map (ps (S k)) t ++
      else_part k (flat_map (ps (S k)) f) f
  | WhileVertex _ c t f =>
      line_of (k * tab) (lit "while " ++ pe c ++ lit ":") ++ flat_map (ps (S k)) t ++
      else_part k (flat_map (ps (S k)) f) f
  | FunctionDefinitionVertex _ _ _ _ | ReturnVertex _ _ => []
  end.

Lemma identifier_nonempty x : identifier x -> x <> [].
Proof. intros (c & r & -> & _). discriminate. Qed.
Lemma name_char_code c : name_letter c \/ 48 <= code c <= 57 -> code c <> 10.
Proof. unfold name_letter. intros H. lia. Qed.
Lemma identifier_line x : identifier x -> Forall (fun c => code c <> 10) x.
Proof.
  intros (c & r & -> & L & F). constructor; [apply name_char_code; left; exact L|].
  eapply Forall_impl; [|exact F]. intros d. apply name_char_code.
Qed.
Lemma line_codes s : forallb (fun c => negb (Ascii.eqb c newline)) (lit s) = true -> Forall (fun c => code c <> 10) (lit s).
Proof.
  intros H. apply Forall_forall. intros c I. rewrite forallb_forall in H. specialize (H c I).
  apply negb_true_iff in H. intros E. apply Ascii.eqb_neq in H. apply H.
  unfold code in E. rewrite <- (ascii_nat_embedding c). replace (nat_of_ascii c) with 10%nat by lia. reflexivity.
Qed.

Lemma bin_line n s : bin n s -> Forall (fun c => code c <> 10) (lit s).
Proof.
  intros [[op E] | [[op E] | [op E]]].
  - destruct op; cbn in E; injection E as <- <-; apply line_codes; reflexivity.
  - destruct op; cbn in E; injection E as <- <-; apply line_codes; reflexivity.
  - destruct E; apply line_codes; reflexivity.
Qed.

Ltac in_line := repeat (apply Forall_app; split); try assumption; try (apply line_codes; reflexivity).
Lemma pe_line :
  (forall v, good v -> Forall (fun c => code c <> 10) (pe v)) /\
  (forall l, goods l -> Forall (fun c => code c <> 10) (sep pe l)).
Proof.
  apply good_mutual; intros; cbn [pe op_vertex fst snd].
  - apply identifier_line; assumption.
  - constructor; [cbv; discriminate|]. apply Forall_app. split; [|repeat constructor; cbv; discriminate].
    eapply Forall_impl; [|exact p0]. intros c (A & _). lia.
  - eapply Forall_impl; [|apply (show_int_sober z)]. intros c (A & _). lia.
  - in_line. apply identifier_line; assumption.
  - in_line. destruct op; apply line_codes; reflexivity.
  - in_line. eapply bin_line; eassumption.
  - in_line.
  - in_line. apply identifier_line; assumption.
  - constructor.
  - cbn [sep]. destruct l; in_line.
Qed.
Lemma pe_nonempty v : good v -> pe v <> [].
Proof.
  destruct 1; cbn [pe op_vertex fst snd]; try discriminate.
  - apply identifier_nonempty; assumption.
  - apply show_int_nonempty.
  - apply identifier_nonempty in H. destruct x; [congruence|discriminate].
  - destruct op; discriminate.
Qed.

Lemma ends_line t : ends_with (t ++ [newline]) [newline] = true.
Proof. unfold ends_with. rewrite rev_app_distr. cbn [rev app starts_with]. destruct (rev t); reflexivity. Qed.
Lemma ends_not t u : u <> [] -> Forall (fun c => code c <> 10) u -> ends_with (t ++ u) [newline] = false.
Proof.
  intros N F. destruct (exists_last N) as (w & c & ->). apply Forall_app in F. destruct F as [_ F].
  apply Forall_cons_iff in F. destruct F as [F _]. unfold ends_with. rewrite app_assoc, rev_app_distr.
  cbn [rev app starts_with]. destruct (Ascii.eqb_spec newline c); [|reflexivity]. subst c. contradiction F. reflexivity.
Qed.

Lemma flat_ends k l : (forall s, List.In s l -> exists u, ps k s = u ++ [newline]) -> l <> [] ->
  exists u, flat_map (ps k) l = u ++ [newline].
Proof.
  induction l as [|s l IH]; [congruence|]. intros H _. cbn [flat_map]. destruct l as [|s' l].
  - cbn [flat_map]. rewrite app_nil_r. apply H. left. reflexivity.
  - destruct IH as (u & E); [intros x I; apply H; right; exact I|discriminate|]. rewrite E.
    exists (ps k s ++ u). apply app_assoc.
Qed.
Lemma line_ends k t : exists u, line_of k t = u ++ [newline].
Proof. exists (repeat " "%char k ++ t). unfold line_of. apply app_assoc. Qed.

Variable debug : bool.

Lemma visit_good :
  (forall s, good_stmt s -> forall k acc, exists r,
     visit_statement debug tab k (acc ++ indentation tab k) s = Some r /\
     (if ends_with r [newline] then r else r ++ [newline]) = acc ++ ps k s) /\
  (forall l, good_stmts l -> forall k acc,
     visit_statements tab (visit_statement debug tab k) k acc l = Some (acc ++ flat_map (ps k) l)).
Proof.
  destruct (show_good debug) as [S _].
  assert (B : forall word c t f, good c -> t <> [] ->
    (forall k acc, visit_statements tab (visit_statement debug tab k) k acc t = Some (acc ++ flat_map (ps k) t)) ->
    (forall k acc, visit_statements tab (visit_statement debug tab k) k acc f = Some (acc ++ flat_map (ps k) f)) ->
    forall k acc, exists r,
      also (also (Some (acc ++ indentation tab k) +~+ Some (lit word) +~+ show_vertex debug c +~+ PrintModel.word ":" +~+ Some [newline])
        (fun printed => visit_statements tab (visit_statement debug tab (Datatypes.S k)) (Datatypes.S k) printed t))
        (fun printed =>
          match f with
          | [] => Some printed
          | _ => visit_statements tab (visit_statement debug tab (Datatypes.S k)) (Datatypes.S k)
                   (printed ++ indentation tab k ++ lit "else:" ++ [newline]) f
          end) = Some r /\
      r = acc ++ line_of (k * tab) (lit word ++ pe c ++ lit ":") ++ flat_map (ps (Datatypes.S k)) t ++
          else_part k (flat_map (ps (Datatypes.S k)) f) f).
  { intros word c t f G N T F k acc. rewrite (S c G). cbn [add PrintModel.word also]. rewrite T. cbn [also].
    destruct f as [|x f]; [|rewrite F]; (eexists; split; [reflexivity|]); unfold else_part, line_of, indentation;
      rewrite <- !app_assoc; rewrite ?app_nil_r; reflexivity. }
  assert (E : forall s k, good_stmt s -> exists u, ps k s = u ++ [newline]).
  { assert (I : forall f k, (forall s, List.In s f -> exists u, ps (Datatypes.S k) s = u ++ [newline]) ->
      forall a, (exists u, a = u ++ [newline]) -> exists u, a ++ else_part k (flat_map (ps (Datatypes.S k)) f) f = u ++ [newline]).
    { intros f k H a (u & ->). destruct f as [|x f]; cbn [else_part]; [exists u; apply app_nil_r|].
      destruct (flat_ends (Datatypes.S k) (x :: f) H ltac:(discriminate)) as (w & ->). rewrite !app_assoc. eauto. }
    assert (J : (forall s, good_stmt s -> forall k, exists u, ps k s = u ++ [newline]) /\
                (forall l, good_stmts l -> forall k s, List.In s l -> exists u, ps k s = u ++ [newline])).
    { apply good_stmt_mutual; intros; cbn [ps]; try apply line_ends.
      - rewrite app_assoc. apply I; [apply H0|]. destruct (flat_ends (Datatypes.S k) t) as (u & ->); [apply H|assumption|].
        rewrite app_assoc. eauto.
      - rewrite app_assoc. apply I; [apply H0|]. destruct (flat_ends (Datatypes.S k) t) as (u & ->); [apply H|assumption|].
        rewrite app_assoc. eauto.
      - contradiction.
      - destruct H1 as [<- | H1]; [apply H|apply H0, H1]. }
    intros s k G. apply (proj1 J), G. }
  apply good_stmt_mutual.
  - intros e G k acc. cbn [visit_statement ps]. rewrite (S e G). cbn [add]. eexists. split; [reflexivity|].
    rewrite ends_not by (apply pe_nonempty || apply (proj1 pe_line); exact G).
    unfold line_of, indentation. rewrite <- !app_assoc. reflexivity.
  - intros p q x e X R G k acc. cbn [visit_statement ps pe]. rewrite (S e G). cbn [add show_vertex word]. eexists. split; [reflexivity|].
    rewrite (app_assoc x), (app_assoc (acc ++ indentation tab k)).
    rewrite ends_not by (apply pe_nonempty || apply (proj1 pe_line); exact G).
    unfold line_of, indentation. rewrite <- !app_assoc. reflexivity.
  - intros p c t f G N Gt T Gf F k acc. cbn [visit_statement].
    destruct (B "if "%string c t f G N T F k acc) as (r & E1 & E2). exists r. split; [exact E1|].
    destruct (E (IfVertex p c t f) k (G_if p c t f G N Gt Gf)) as (u & U).
    change (r = acc ++ ps k (IfVertex p c t f)) in E2. rewrite E2, U, app_assoc, ends_line. reflexivity.
  - intros p c t f G N Gt T Gf F k acc. cbn [visit_statement].
    destruct (B "while "%string c t f G N T F k acc) as (r & E1 & E2). exists r. split; [exact E1|].
    destruct (E (WhileVertex p c t f) k (G_while p c t f G N Gt Gf)) as (u & U).
    change (r = acc ++ ps k (WhileVertex p c t f)) in E2. rewrite E2, U, app_assoc, ends_line. reflexivity.
  - intros k acc. cbn. rewrite app_nil_r. reflexivity.
  - intros s l G IH Gl IHl k acc. cbn [visit_statements flat_map]. destruct (IH k acc) as (r & -> & ->).
    rewrite IHl, app_assoc. reflexivity.
Qed.

Hypothesis tab_positive : (0 < tab)%nat.

Lemma denotes_stmts_length l w : denotes_stmts l w -> l <> [] -> w <> [].
Proof. destruct 1; [congruence|discriminate]. Qed.

Lemma denotes_good_stmt :
  (forall x v, denotes_stmt x v -> python_stmt x -> stmt_survives x ->
     good_stmt v /\ forall k, stmt_at (k * tab) (ps k v) (norm_stmt x)) /\
  (forall l w, denotes_stmts l w -> Forall python_stmt l -> every stmt_survives l ->
     good_stmts w /\ forall k, block (k * tab) (flat_map (ps k) w) (map norm_stmt l)).
Proof.
  destruct denotes_good as [D _].
  assert (U : forall t w f u k, denotes_stmts t w -> t <> [] -> denotes_stmts f u ->
    (forall k, block (k * tab) (flat_map (ps k) w) (map norm_stmt t)) ->
    (forall k, block (k * tab) (flat_map (ps k) u) (map norm_stmt f)) ->
    suite (k * tab) (flat_map (ps (S k)) w) (map norm_stmt t) /\
    else_at (k * tab) (else_part k (flat_map (ps (S k)) u) u) (map norm_stmt f)).
  { intros t w f u k T N F Bt Bf.
    assert (P : (k * tab < S k * tab)%nat) by (cbn [Nat.mul]; lia). split.
    - apply T_suite with (k' := (S k * tab)%nat); [exact P| |apply Bt]. destruct t; [congruence|discriminate].
    - destruct F as [|x l v u X L]; cbn [else_part]; [constructor|]. apply T_else.
      apply T_suite with (k' := (S k * tab)%nat); [exact P|discriminate|apply Bf]. }
  apply denotes_stmt_mutual.
  - intros p e v E W S. inversion W; subst. destruct (D _ _ _ _ E) as [G R].
    + apply python_moved; assumption.
    + apply survives_moved, S.
    + split; [constructor; exact G|]. intros k. cbn [ps norm_stmt]. constructor. rewrite norm_moved in R. exact R.
  - intros p q x e v E W [[S _] T]. inversion W; subst.
    match goal with H : Forall python [_] |- _ => apply Forall_cons_iff in H; destruct H as [H _]; inversion H; subst end.
    destruct (D _ _ _ _ E) as [G R]; [assumption..|].
    split; [constructor; assumption|]. intros k. cbn [ps norm_stmt pe map norm]. constructor; assumption.
  - intros p c t f v w u E Dt IHt Df IHf W (S1 & S2 & S3). inversion W; subst.
    destruct (D _ _ _ _ E) as [G R]; [assumption..|].
    destruct IHt as [Gt Rt]; [assumption..|]. destruct IHf as [Gf Rf]; [assumption..|].
    split; [constructor; [exact G|eapply denotes_stmts_length; eassumption|assumption..]|].
    intros k. cbn [ps norm_stmt]. destruct (U t w f u k) as [A B]; [assumption..|]. constructor; assumption.
  - intros p c t f v w u E Dt IHt Df IHf W (S1 & S2 & S3). inversion W; subst.
    destruct (D _ _ _ _ E) as [G R]; [assumption..|].
    destruct IHt as [Gt Rt]; [assumption..|]. destruct IHf as [Gf Rf]; [assumption..|].
    split; [constructor; [exact G|eapply denotes_stmts_length; eassumption|assumption..]|].
    intros k. cbn [ps norm_stmt]. destruct (U t w f u k) as [A B]; [assumption..|]. constructor; assumption.
  - intros p x a b d v w _ _ _ _ [].
  - intros p _ [].
  - intros p e v _ _ [].
  - intros _ _. split; constructor.
  - intros x l v w E IH El IHl W [S T]. apply Forall_cons_iff in W. destruct W as [W1 W2].
    destruct IH as [G R]; [assumption..|]. destruct IHl as [Gl Rl]; [assumption..|].
    split; [constructor; assumption|]. intros k. cbn [flat_map map]. constructor; [apply R|apply Rl].
Qed.
End Tab.

(** ** Scripts that differ in positions only denote trees that do *)

Lemma norm_denotes :
  (forall s a e v, denotes s a e v -> forall e', norm e' = norm e -> exists v', denotes s a e' v' /\ bare v' = bare v) /\
  (forall s a l w, denotes_all s a l w -> forall l', map norm l' = map norm l ->
     exists w', denotes_all s a l' w' /\ map bare w' = map bare w).
Proof.
  apply denotes_mutual.
  - intros s a p x e' E. destruct e'; try discriminate E. injection E as ->. eexists. split; [constructor|reflexivity].
  - intros s a p z B e' E. destruct e' as [|q n| | | | | | | | | |]; try discriminate E. injection E as E.
    destruct n; try discriminate E; injection E as ->; (eexists; split; [constructor; exact B|reflexivity]).
  - intros s a p z B e' E. destruct e' as [|q n| | | | | | | | | |]; try discriminate E. injection E as E.
    destruct n; try discriminate E; injection E as ->; (eexists; split; [constructor; exact B|reflexivity]).
  - intros s a p x y H e' E. destruct e' as [|q n| | | | | | | | | |]; try discriminate E. injection E as E.
    destruct n; try discriminate E; injection E as ->. eexists. split; [constructor; exact H|reflexivity].
  - intros s a p t e' E. destruct e'; try discriminate E. injection E as ->. eexists. split; [constructor|reflexivity].
  - intros s a p q f e' E. destruct e' as [| | | |p' f' l' k' a' b'| | | | | | |]; try discriminate E. cbn [norm] in E. injection E as F L K A B.
    destruct f'; try discriminate F. injection F as ->. destruct l'; [discriminate L|]. destruct k'; [|discriminate K].
    destruct a'; [discriminate A|]. destruct b'; [discriminate B|]. eexists. split; [constructor|reflexivity].
  - intros s a p q f l v N D IH e' E. destruct e' as [| | | |p' f' l' k' a' b'| | | | | | |]; try discriminate E. cbn [norm] in E. injection E as F L K A B.
    destruct f'; try discriminate F. injection F as ->. destruct l' as [l'|]; [|discriminate L]. injection L as L. destruct k'; [|discriminate K].
    destruct a'; [discriminate A|]. destruct b'; [discriminate B|]. destruct (IH _ L) as (w' & D' & W).
    eexists. split; [constructor; [|exact D']|cbn [bare]; rewrite W; reflexivity].
    intros ->. destruct l; [congruence|discriminate L].
  - intros s a p op e v D IH e' E. destruct e'; try discriminate E. cbn [norm] in E. injection E as -> E.
    destruct (IH _ E) as (v' & D' & B). eexists. split; [constructor; exact D'|]. cbn [bare op_vertex map]. rewrite B. reflexivity.
  - intros s a p op e f v w D IH D2 IH2 e' E. destruct e'; try discriminate E. cbn [norm] in E. injection E as E -> E2.
    destruct (IH _ E) as (v' & D' & B). destruct (IH2 _ E2) as (w' & D2' & B2).
    eexists. split; [constructor; eassumption|]. cbn [bare op_vertex map]. rewrite B, B2. reflexivity.
  - intros s a p op e f v w D IH D2 IH2 e' E. destruct e' as [| | | | | | |p' op' l'| | | |]; try discriminate E. cbn [norm map] in E. injection E as -> E.
    destruct l' as [|e1 [|e2 [|e3 l']]]; try discriminate E. injection E as E E2.
    destruct (IH _ E) as (v' & D' & B). destruct (IH2 _ E2) as (w' & D2' & B2).
    eexists. split; [constructor; eassumption|]. cbn [bare op_vertex map]. rewrite B, B2. reflexivity.
  - intros s a p op n m e f v w C D IH D2 IH2 e' E. destruct e' as [| | | | | | | |p' e1 op' l'| | |]; try discriminate E. cbn [norm map] in E. injection E as E -> E2.
    destruct l' as [|e2 [|e3 l']]; try discriminate E2. injection E2 as E2.
    destruct (IH _ E) as (v' & D' & B). destruct (IH2 _ E2) as (w' & D2' & B2).
    eexists. split; [econstructor; eassumption|]. cbn [bare op_vertex map]. rewrite B, B2. reflexivity.
  - intros a p e i v w D IH D2 IH2 e' E. destruct e' as [| | | | | | | | |p' e1 i'| |]; try discriminate E. cbn [norm option_map] in E. injection E as E E2.
    destruct i' as [i'|]; [|discriminate E2]. injection E2 as E2.
    destruct (IH _ E) as (v' & D' & B). destruct (IH2 _ E2) as (w' & D2' & B2).
    eexists. split; [constructor; eassumption|]. cbn [bare]. rewrite B, B2. reflexivity.
  - intros s p e x v D IH e' E. destruct e'; try discriminate E. cbn [norm] in E. injection E as E ->.
    destruct (IH _ E) as (v' & D' & B). eexists. split; [constructor; exact D'|]. cbn [bare]. rewrite B. reflexivity.
  - intros s a [|e l'] E; [|discriminate E]. exists []. split; constructor.
  - intros s a e l v w D IH D2 IH2 [|e' l'] E; [discriminate E|]. injection E as E E2.
    destruct (IH _ E) as (v' & D' & B). destruct (IH2 _ E2) as (w' & D2' & B2).
    exists (v' :: w'). split; [constructor; assumption|]. cbn [map]. congruence.
Qed.

Lemma norm_denotes_stmt :
  (forall x v, denotes_stmt x v -> forall x', norm_stmt x' = norm_stmt x -> exists v', denotes_stmt x' v' /\ bare_stmt v' = bare_stmt v) /\
  (forall l w, denotes_stmts l w -> forall l', map norm_stmt l' = map norm_stmt l ->
     exists w', denotes_stmts l' w' /\ map bare_stmt w' = map bare_stmt w).
Proof.
  destruct norm_denotes as [N M]. apply denotes_stmt_mutual.
  - intros p e v D x' E. destruct x' as [p' e'| | | | | |]; try discriminate E. injection E as E.
    destruct (N _ _ _ _ D (moved p' e')) as (v' & D' & B); [rewrite !norm_moved; exact E|].
    exists (ExpressionVertex v'). split; [constructor; exact D'|]. cbn [bare_stmt]. congruence.
  - intros p q x e v D x' E. destruct x' as [|p' l' e'| | | | |]; try discriminate E. cbn [norm_stmt map] in E. injection E as L E.
    destruct l' as [|t [|t' l']]; try discriminate L. injection L as L. destruct t; try discriminate L. injection L as ->.
    destruct (N _ _ _ _ D _ E) as (v' & D' & B). eexists. split; [constructor; exact D'|]. cbn [bare_stmt bare]. congruence.
  - intros p c t f v w u D Dt IHt Df IHf x' E. destruct x' as [| |p' c' t' f'| | | |]; try discriminate E. cbn [norm_stmt] in E. injection E as E1 E2 E3.
    destruct (N _ _ _ _ D _ E1) as (v' & D' & B). destruct (IHt _ E2) as (w' & Dt' & Bt). destruct (IHf _ E3) as (u' & Df' & Bf).
    eexists. split; [constructor; eassumption|]. cbn [bare_stmt]. congruence.
  - intros p c t f v w u D Dt IHt Df IHf x' E. destruct x' as [| | |p' c' t' f'| | |]; try discriminate E. cbn [norm_stmt] in E. injection E as E1 E2 E3.
    destruct (N _ _ _ _ D _ E1) as (v' & D' & B). destruct (IHt _ E2) as (w' & Dt' & Bt). destruct (IHf _ E3) as (u' & Df' & Bf).
    eexists. split; [constructor; eassumption|]. cbn [bare_stmt]. congruence.
  - intros p x a b d v w D Db IHb x' E. destruct x' as [| | | |p' y a' b' d'| |]; try discriminate E. cbn [norm_stmt] in E. injection E as -> E1 _ _ _ E2 _.
    destruct (M _ _ _ _ D _ E1) as (v' & D' & B). destruct (IHb _ E2) as (w' & Db' & Bb).
    eexists. split; [constructor; eassumption|]. cbn [bare_stmt]. congruence.
  - intros p x' E. destruct x' as [| | | | |p' e'|]; try discriminate E. destruct e'; [discriminate E|].
    eexists. split; [constructor|reflexivity].
  - intros p e v D x' E. destruct x' as [| | | | |p' e'|]; try discriminate E. destruct e' as [e'|]; [|discriminate E]. injection E as E.
    destruct (N _ _ _ _ D _ E) as (v' & D' & B). eexists. split; [constructor; exact D'|]. cbn [bare_stmt option_map]. congruence.
  - intros [|e l'] E; [|discriminate E]. exists []. split; constructor.
  - intros x l v w D IH D2 IH2 [|x' l'] E; [discriminate E|]. injection E as E E2.
    destruct (IH _ E) as (v' & D' & B). destruct (IH2 _ E2) as (w' & D2' & B2).
    exists (v' :: w'). split; [constructor; assumption|]. cbn [map]. congruence.
Qed.
