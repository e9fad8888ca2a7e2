(** * Scripts and their trees: proofs *)

From Coq Require Import String Ascii List Bool ZArith Lia DecimalString DecimalPos DecimalZ SpecFloat.
From Verif Require Import IntsModel FloatModel StringModel XmlModel DecimalModel ScriptModel ScriptSpec XmlProofs.
Import ListNotations.
Open Scope Z_scope.

Section PyInd.
Variable P : py_expr -> Prop.
Hypothesis HName : forall p x, P (PName p x).
Hypothesis HNum : forall p n, P (PNum p n).
Hypothesis HStr : forall p s, P (PStr p s).
Hypothesis HUni : forall p, P (PUnicode p).
Hypothesis HCall : forall p f l k a b, P f -> (forall l', l = Some l' -> Forall P l') -> P (PCall p f l k a b).
Hypothesis HUnary : forall p op e, P e -> P (PUnaryOp p op e).
Hypothesis HBin : forall p e op f, P e -> P f -> P (PBinOp p e op f).
Hypothesis HBool : forall p op l, Forall P l -> P (PBoolOp p op l).
Hypothesis HCmp : forall p e ops l, P e -> Forall P l -> P (PCompare p e ops l).
Hypothesis HSub : forall p e i, P e -> (forall f, i = Some f -> P f) -> P (PSubscript p e i).
Hypothesis HAtt : forall p e x, P e -> P (PAttribute p e x).
Hypothesis HOther : forall p k, P (POther p k).
Fixpoint py_induction (e : py_expr) : P e :=
  let all := fix go l : Forall P l :=
    match l with [] => Forall_nil P | y :: l' => Forall_cons y (py_induction y) (go l') end in
  match e with
  | PName p x => HName p x
  | PNum p n => HNum p n
  | PStr p s => HStr p s
  | PUnicode p => HUni p
  | PCall p f l k a b =>
      HCall p f l k a b (py_induction f)
        (match l as l0 return forall l', l0 = Some l' -> Forall P l' with
         | Some m => fun l' E => match E in _ = o return match o with Some q => Forall P q | None => True end
                                 with eq_refl => all m end
         | None => fun l' E => match E in _ = o return match o with Some q => Forall P q | None => True end
                               with eq_refl => I end
         end)
  | PUnaryOp p op e => HUnary p op e (py_induction e)
  | PBinOp p e op f => HBin p e op f (py_induction e) (py_induction f)
  | PBoolOp p op l => HBool p op l (all l)
  | PCompare p e ops l => HCmp p e ops l (py_induction e) (all l)
  | PSubscript p e i =>
      HSub p e i (py_induction e)
        (match i as i0 return forall f, i0 = Some f -> P f with
         | Some m => fun f E => match E in _ = o return match o with Some q => P q | None => True end
                                with eq_refl => py_induction m end
         | None => fun f E => match E in _ = o return match o with Some q => P q | None => True end
                              with eq_refl => I end
         end)
  | PAttribute p e x => HAtt p e x (py_induction e)
  | POther p k => HOther p k
  end.
End PyInd.

Section StmtInd.
Variable P : py_stmt -> Prop.
Hypothesis HExpr : forall p e, P (SExpr p e).
Hypothesis HAssign : forall p l e, P (SAssign p l e).
Hypothesis HIf : forall p c t f, Forall P t -> Forall P f -> P (SIf p c t f).
Hypothesis HWhile : forall p c t f, Forall P t -> Forall P f -> P (SWhile p c t f).
Hypothesis HDef : forall p x a b d, Forall P b -> P (SFunctionDef p x a b d).
Hypothesis HReturn : forall p e, P (SReturn p e).
Hypothesis HOther : forall p k, P (SOther p k).
Fixpoint pystmt_induction (s : py_stmt) : P s :=
  let all := fix go l : Forall P l :=
    match l with [] => Forall_nil P | y :: l' => Forall_cons y (pystmt_induction y) (go l') end in
  match s with
  | SExpr p e => HExpr p e
  | SAssign p l e => HAssign p l e
  | SIf p c t f => HIf p c t f (all t) (all f)
  | SWhile p c t f => HWhile p c t f (all t) (all f)
  | SFunctionDef p x a b d => HDef p x a b d (all b)
  | SReturn p e => HReturn p e
  | SOther p k => HOther p k
  end.
End StmtInd.

(** ** Problems are reported *)

Definition lift (q : problem) : written :=
  match q with NotSupported k p => Unsupported k p | Unforeseen => Asserts end.
Definition result (w : written) (l : list problem) : Prop :=
  match l with [] => exists t, w = Text t | q :: _ => w = lift q end.

Lemma result_seq w l w' l' : result w l -> result w' l' -> result (w +++ w') (l ++ l').
Proof.
  destruct l as [|q l]; simpl.
  - intros [t ->]. destruct l' as [|q' l']; simpl; [intros [t' ->]; simpl; eauto|].
    intros ->. destruct q'; reflexivity.
  - intros -> _. destruct q; reflexivity.
Qed.
Lemma result_text t : result (Text t) [].
Proof. simpl. eauto. Qed.
Lemma result_pre t w l : result w l -> result (Text t +++ w) l.
Proof. intros H. apply (result_seq _ [] _ l); auto using result_text. Qed.
Lemma result_post t w l : result w l -> result (w +++ Text t) l.
Proof. intros H. rewrite <- (app_nil_r l). apply result_seq; auto using result_text. Qed.

Lemma result_concat {X} (write : X -> written) (f : X -> list problem) l :
  Forall (fun x => result (write x) (f x)) l -> result (concat (map write l)) (flat_map f l).
Proof. induction 1; simpl; [eauto|]. apply result_seq; auto. Qed.

Lemma result_open n p : exists t, open_at n p = Text t.
Proof. eexists. reflexivity. Qed.

Lemma result_name x : result (write_identifier_node x) [].
Proof. eexists. reflexivity. Qed.

Lemma expr_kind_eq k : expr_construct k = expr_kind k. Proof. destruct k; reflexivity. Qed.
Lemma stmt_kind_eq k : stmt_construct k = stmt_kind k. Proof. destruct k; reflexivity. Qed.

Lemma expr_result e : result (write_expression_node e) (problems e).
Proof.
  induction e as [p x|p n|p s|p|p f l k a b _ IHl|p op e IH|p e op f IHe IHf|p op l IH|p e ops l IHe IHl|p e i IHe IHi|p e x IH|p k]
    using py_induction;
  cbn [write_expression_node problems expr_pos];
  match goal with |- context [open_at ?n ?q] => destruct (result_open n q) as [t0 ->] end;
  apply result_pre, result_post.
  - apply result_name.
  - destruct n; try reflexivity; eexists; reflexivity.
  - destruct s; eexists; reflexivity.
  - reflexivity.
  - destruct k; [|reflexivity]. destruct a; [reflexivity|]. destruct b; [reflexivity|].
    apply result_pre, result_seq.
    + destruct f; try reflexivity. apply result_name.
    + apply result_post. destruct l as [[|y l]|]; cbn [write_expressions_node]; [reflexivity| |apply result_text].
      apply result_pre, result_post, result_concat. auto.
  - do 3 apply result_pre. apply result_post, IH.
  - do 3 apply result_pre. apply result_seq; [exact IHe|]. apply result_post, IHf.
  - do 3 apply result_pre. apply result_post. cbn [write_expressions_node]. destruct l as [|y l]; [reflexivity|].
    apply result_pre, result_post, result_concat, IH.
  - destruct ops as [|op [|]]; try reflexivity. destruct l as [|f [|]]; try reflexivity.
    apply result_pre, result_seq; [destruct op; try reflexivity; eexists; reflexivity|]. apply result_pre.
    apply result_seq; [exact IHe|]. apply Forall_inv in IHl. apply result_post, IHl.
  - apply result_pre, result_seq; [exact IHe|]. apply result_post. destruct i; [apply IHi; reflexivity|reflexivity].
  - apply result_pre. rewrite <- (app_nil_r (problems e)). apply result_seq; [exact IH|]. apply result_post, result_name.
  - simpl. rewrite expr_kind_eq. reflexivity.
Qed.

Lemma exprs_result l : result (concat (map write_expression_node l)) (flat_map problems l).
Proof. apply result_concat. apply Forall_forall. intros. apply expr_result. Qed.

Lemma stmt_nodes_result l : Forall (fun x => result (write_statement x) (stmt_problems x)) l ->
  result (write_statement_nodes write_statement l) (flat_map stmt_problems l).
Proof.
  intros H. destruct l as [|x l]; [apply result_text|]. cbn [write_statement_nodes].
  apply result_pre, result_post, result_concat, H.
Qed.

Lemma stmt_result x : result (write_statement x) (stmt_problems x).
Proof.
  induction x as [p e|p l e|p c t f IHt IHf|p c t f IHt IHf|p y a b d IH|p e|p k] using pystmt_induction;
  cbn [write_statement stmt_problems stmt_pos];
  match goal with |- context [open_at ?n ?q] => destruct (result_open n q) as [t0 ->] end;
  apply result_pre, result_post.
  - apply expr_result.
  - destruct l as [|[] [|]]; try reflexivity. apply result_pre.
    apply (result_seq _ []); [apply (expr_result (PName p0 id))|]. apply result_post, expr_result.
  - apply result_pre, result_seq; [apply expr_result|]. apply result_seq; [apply stmt_nodes_result, IHt|].
    apply result_post, stmt_nodes_result, IHf.
  - apply result_pre, result_seq; [apply expr_result|]. apply result_seq; [apply stmt_nodes_result, IHt|].
    apply result_post, stmt_nodes_result, IHf.
  - apply result_pre. apply (result_seq _ []); [apply result_name|]. apply result_seq.
    + destruct (args a) as [|e l] eqn:E; [apply result_text|]. cbn [write_expression_nodes].
      apply result_pre, result_post. apply exprs_result.
    + apply result_post, stmt_nodes_result, IH.
  - destruct e; [|apply result_text]. apply result_pre, result_post, expr_result.
  - simpl. rewrite stmt_kind_eq. reflexivity.
Qed.

Lemma script_result src body : result (write_script src body) (flat_map stmt_problems body).
Proof.
  unfold write_script. do 4 apply result_pre. apply result_post, stmt_nodes_result.
  apply Forall_forall. intros. apply stmt_result.
Qed.

(** ** Text of numbers *)

Definition sober (c : ascii) : Prop := 32 <= code c < 128 /\ c <> "<"%char /\ c <> "&"%char /\ c <> "]"%char.

Lemma read_show z : read_integer (show_int z) = Some z.
Proof.
  unfold read_integer, show_int, lit. rewrite string_of_list_ascii_of_string, NilZero.isi.
  - rewrite DecimalZ.of_to. reflexivity.
  - destruct z; simpl; try discriminate. intros E. injection E. apply DecimalPos.Unsigned.to_uint_nonnil.
  - destruct z; simpl; try discriminate. intros E. injection E. apply DecimalPos.Unsigned.to_uint_nonnil.
Qed.
Lemma read_between_show lo hi z :
  read_between lo hi (show_int z) = if (lo <=? z) && (z <=? hi) then Some z else None.
Proof. unfold read_between. rewrite read_show. reflexivity. Qed.

Lemma uint_sober d : Forall sober (lit (NilEmpty.string_of_uint d)).
Proof. induction d; simpl; repeat constructor; try discriminate; assumption. Qed.
Lemma uint_sober' d : Forall sober (lit (NilZero.string_of_uint d)).
Proof. destruct d; try apply uint_sober. repeat constructor; discriminate. Qed.
Lemma show_int_sober z : Forall sober (show_int z).
Proof.
  unfold show_int. destruct z; simpl; try apply uint_sober'.
  - repeat constructor; discriminate.
  - constructor; [repeat constructor; discriminate|]. apply uint_sober'.
Qed.
Lemma show_int_nonempty z : show_int z <> [].
Proof.
  intros E. pose proof (read_show z) as H. rewrite E in H. discriminate H.
Qed.

Lemma drop_zeros_sub (P : ascii -> Prop) t : Forall P t -> Forall P (drop_zeros t).
Proof.
  induction 1 as [|c t H A IH]; [constructor|]. 
  destruct c as [[] [] [] [] [] [] [] []]; try (constructor; assumption). exact IH.
Qed.
Lemma fraction_sober t : Forall sober t -> Forall sober (fraction t).
Proof.
  intros H. unfold fraction. apply Forall_rev, drop_zeros_sub, Forall_rev in H.
  destruct (drop_zeros (rev t)) as [|c r] eqn:E; [constructor|].
  constructor; [repeat constructor; discriminate|exact H].
Qed.
Lemma zeros_sober n : Forall sober (zeros n).
Proof. unfold zeros. induction (Z.to_nat n); simpl; repeat constructor; try discriminate. assumption. Qed.
Lemma firstn_all_sober n t : Forall sober t -> Forall sober (firstn n t) /\ Forall sober (skipn n t).
Proof. intros H. rewrite <- (firstn_skipn n t) in H. apply Forall_app in H. exact H. Qed.
Lemma two_digits_sober z : Forall sober (two_digits z).
Proof. unfold two_digits. destruct (z <? 10); [apply Forall_app; split; [apply zeros_sober|]|]; apply show_int_sober. Qed.
Lemma show_six_sober D X : Forall sober (show_six D X).
Proof.
  unfold show_six. pose proof (show_int_sober D) as H.
  destruct ((X <? -4) || (6 <=? X)).
  - apply Forall_app. split; [apply firstn_all_sober, H|]. apply Forall_app. split; [apply fraction_sober, firstn_all_sober, H|].
    constructor; [repeat constructor; discriminate|]. constructor; [destruct (X <? 0); repeat constructor; discriminate|].
    apply two_digits_sober.
  - destruct (X <? 0); apply Forall_app; split.
    + apply zeros_sober.
    + apply fraction_sober, Forall_app. split; [apply zeros_sober|exact H].
    + apply firstn_all_sober, H.
    + apply fraction_sober, firstn_all_sober, H.
Qed.
Lemma show_six_nonempty D X : show_six D X <> [].
Proof.
  unfold show_six. pose proof (show_int_nonempty D). destruct (show_int D) as [|c t]; [congruence|].
  destruct ((X <? -4) || (6 <=? X)) eqn:E; [discriminate|].
  destruct (X <? 0) eqn:F; [discriminate|].
  apply Z.ltb_ge in F. destruct (Z.to_nat (X + 1)) eqn:G; [lia|discriminate].
Qed.
Lemma show_double_sober x : Forall sober (show_double x).
Proof.
  destruct x as [[]|[]| |s m e]; try (repeat constructor; discriminate).
  unfold show_double. destruct (if 0 <=? e then _ else _) as [n d]. destruct (six_digits n d) as [D X].
  apply Forall_app. split; [destruct s; repeat constructor; discriminate|apply show_six_sober].
Qed.
Lemma show_double_nonempty x : show_double x <> [].
Proof.
  destruct x as [[]|[]| |s m e]; try discriminate.
  unfold show_double. destruct (if 0 <=? e then _ else _) as [n d]. destruct (six_digits n d) as [D X].
  destruct s; [discriminate|apply show_six_nonempty].
Qed.

(** ** The XML of a script *)

Definition el (n : string) (l : list xml) : xml := Element (lit n) [] l.
Definition leaf (n : string) (t : text) : xml := el n (match t with [] => [] | _ => [Chars t] end).
Definition places (p : pos) : list (text * text) :=
  [(lit "line", show_int (line p)); (lit "col", show_int (col p))].
Definition op_tree (n : string) (l : list xml) : xml :=
  el "Operator" [leaf "Name" (lit n); el "Expressions" l].

Fixpoint tree (e : py_expr) : xml :=
  Element (lit "Expression") (places (expr_pos e))
  [match e with
   | PName _ x => leaf "Name" x
   | PNum _ n =>
       el "Number"
        [match n with
         | PyInt z => el "Integer" [leaf "Size" (show_int 64); leaf "Value" (show_int z)]
         | PyLong z => el "Integer" [leaf "Size" (show_int 64); leaf "Value" (show_int (as_long_long z))]
         | PyFloat x => el "Float" [leaf "Size" (show_int 64); leaf "Value" (show_double x)]
         | PyComplex => el "None" []
         end]
   | PStr _ s => leaf "String" s
   | PCall _ f l _ _ _ =>
       el "FunctionCall" [leaf "Name" (match f with PName _ x => x | _ => [] end);
                          el "Expressions" (match l with Some l => map tree l | None => [] end)]
   | PUnaryOp _ op e => op_tree (unary_name op) [tree e]
   | PBinOp _ e op f => op_tree (binary_name op) [tree e; tree f]
   | PBoolOp _ op l => op_tree (boolean_name op) (map tree l)
   | PCompare _ e ops l =>
       op_tree (match ops with
                | op :: _ => match comparison_name op with Some n => n | None => "" end
                | [] => ""
                end) (tree e :: match l with f :: _ => [tree f] | [] => [] end)
   | PSubscript _ e i => el "Subscript" (tree e :: match i with Some i => [tree i] | None => [] end)
   | PAttribute _ e x => el "Attribute" [tree e; leaf "Name" x]
   | PUnicode _ | POther _ _ => el "None" []
   end].

Fixpoint stmt_tree (x : py_stmt) : xml :=
  Element (lit "Statement") (places (stmt_pos x))
  [match x with
   | SExpr _ e => tree e
   | SAssign _ l e => el "Assignment" [match l with t :: _ => tree t | [] => el "None" [] end; tree e]
   | SIf _ c t f => el "If" [tree c; el "Statements" (map stmt_tree t); el "Statements" (map stmt_tree f)]
   | SWhile _ c t f => el "While" [tree c; el "Statements" (map stmt_tree t); el "Statements" (map stmt_tree f)]
   | SFunctionDef _ y a b _ =>
       el "FunctionDefinition" [leaf "Name" y; el "Expressions" (map tree (args a)); el "Statements" (map stmt_tree b)]
   | SReturn _ e => el "Return" (match e with Some e => [tree e] | None => [] end)
   | SOther _ _ => el "None" []
   end].

Definition script_tree (src : text) (body : list py_stmt) : xml :=
  Element (lit "Fern") [(lit "source", src)] [el "Statements" (map stmt_tree body)].

(** ** What is written is that tree *)

Lemma esc_sober t : Forall (fun c => c <> "&"%char /\ c <> "<"%char /\ c <> ">"%char /\ c <> """"%char /\ c <> "'"%char) t -> esc t = t.
Proof.
  induction 1 as [|c t (A & B & C & D & E) _ IH]; [reflexivity|]. unfold esc. cbn [flat_map]. fold (esc t). rewrite IH.
  unfold esc_char. rewrite !eqb_no by auto. reflexivity.
Qed.

Lemma uint_quiet d : Forall (fun c => c <> "&"%char /\ c <> "<"%char /\ c <> ">"%char /\ c <> """"%char /\ c <> "'"%char) (lit (NilEmpty.string_of_uint d)).
Proof. induction d; simpl; repeat constructor; try discriminate; assumption. Qed.
Lemma esc_show_int z : esc (show_int z) = show_int z.
Proof.
  apply esc_sober. unfold show_int.
  assert (U : forall d, Forall (fun c => c <> "&"%char /\ c <> "<"%char /\ c <> ">"%char /\ c <> """"%char /\ c <> "'"%char) (lit (NilZero.string_of_uint d))).
  { intros d. destruct d; try apply uint_quiet. repeat constructor; discriminate. }
  destruct z; simpl; try apply U.
  - repeat constructor; discriminate.
  - constructor; [repeat split; discriminate|]. apply U.
Qed.

Lemma c_string_id t : Forall (fun c => c <> "000"%char) t -> c_string t = t.
Proof. induction 1 as [|c t A _ IH]; [reflexivity|]. cbn [c_string]. rewrite eqb_no by auto. rewrite IH. reflexivity. Qed.

Lemma name_letter_code c : name_letter c -> 65 <= code c <= 122.
Proof. unfold name_letter. lia. Qed.
Lemma identifier_chars x : identifier x -> x <> [] /\ Forall sober x.
Proof.
  intros (c & r & -> & C & R). split; [discriminate|].
  assert (L : code "<" = 60) by reflexivity. assert (M : code "&" = 38) by reflexivity.
  assert (N : code "]" = 93) by reflexivity.
  assert (G : forall d, name_letter d \/ 48 <= code d <= 57 -> sober d).
  { intros d [H|H]; [|unfold sober; repeat split; try lia; intros ->; lia].
    pose proof (name_letter_code _ H). unfold name_letter in H.
    unfold sober. repeat split; try lia; intros ->; lia. }
  constructor; [apply G; auto|]. eapply Forall_impl; [|exact R]. auto.
Qed.
Lemma sober_no_null t : Forall sober t -> Forall (fun c => c <> "000"%char) t.
Proof. intros H. eapply Forall_impl; [|exact H]. intros c (A & _) ->. assert (L : code "000" = 0) by reflexivity. lia. Qed.
Lemma plain_no_null t : plain_text t -> Forall (fun c => c <> "000"%char) t.
Proof. intros [H _]. eapply Forall_impl; [|exact H]. intros c (A & _) ->. assert (L : code "000" = 0) by reflexivity. lia. Qed.

Ltac norm := repeat (cbn [app lit list_ascii_of_string show flat_map el leaf and_then str]; rewrite <- ?app_assoc).

Lemma open_at_text n p : open_at n p = Text ("<"%char :: lit n ++ show_attributes (places p) ++ [">"%char]).
Proof.
  unfold open_at, show_attributes, places. cbn [flat_map]. unfold show_attribute. cbn [fst snd].
  rewrite !esc_show_int. cbn [and_then str]. f_equal.
  change (lit "<") with ["<"%char]. change (lit " line=""") with (" "%char :: lit "line" ++ lit "=""").
  change (lit """ col=""") with (""""%char :: " "%char :: lit "col" ++ lit "=""").
  change (lit """>") with [""""%char; ">"%char]. repeat (cbn [app]; rewrite <- ?app_assoc). reflexivity.
Qed.

Lemma show_element n a x l : show (Element n a (x :: l)) =
  "<"%char :: n ++ show_attributes a ++ [">"%char] ++ flat_map show (x :: l) ++ lit "</" ++ n ++ [">"%char].
Proof. reflexivity. Qed.

Lemma show_leaf n t : t <> [] -> show (leaf n t) = ("<"%char :: lit n ++ [">"%char]) ++ t ++ lit "</" ++ lit n ++ [">"%char].
Proof.
  intros H. unfold leaf, el. destruct t as [|c t]; [congruence|]. rewrite show_element. cbn [show_attributes flat_map show app].
  rewrite app_nil_r. repeat (cbn [app]; rewrite <- ?app_assoc). reflexivity.
Qed.

Lemma name_text x : identifier x -> write_identifier_node x = Text (show (leaf "Name" x)).
Proof.
  intros H. destruct (identifier_chars _ H) as [N S]. unfold write_identifier_node. rewrite c_string_id by auto using sober_no_null.
  rewrite show_leaf by auto. reflexivity.
Qed.

Lemma string_text s : plain_text s -> write_string_node s = Text (show (leaf "String" s)).
Proof.
  intros H. unfold write_string_node. destruct s as [|c s]; [reflexivity|].
  rewrite c_string_id by auto using plain_no_null. rewrite show_leaf by discriminate. reflexivity.
Qed.

Lemma concat_text {X} (write : X -> written) (f : X -> xml) l :
  Forall (fun x => write x = Text (show (f x))) l -> concat (map write l) = Text (flat_map show (map f l)).
Proof. induction 1 as [|x l A _ IH]; [reflexivity|]. cbn [map concat flat_map]. rewrite A, IH. reflexivity. Qed.

Lemma flat_map_nil {X} (f : X -> list problem) l : flat_map f l = [] -> Forall (fun x => f x = []) l.
Proof. induction l; simpl; [constructor|]. intros H. apply app_eq_nil in H. constructor; tauto. Qed.


Lemma wrap n p x : 
  open_at n p +++ Text (show x) +++ Text (lit "</" ++ lit n ++ lit ">") =
  Text (show (Element (lit n) (places p) [x])).
Proof.
  rewrite open_at_text, show_element. cbn [and_then flat_map]. rewrite app_nil_r. f_equal.
  repeat (cbn [app]; rewrite <- ?app_assoc). reflexivity.
Qed.

Lemma wrap_el n x l : 
  Text (lit "<" ++ lit n ++ lit ">") +++ Text (flat_map show (x :: l)) +++ Text (lit "</" ++ lit n ++ lit ">") =
  Text (show (el n (x :: l))).
Proof.
  unfold el. rewrite show_element. cbn [and_then show_attributes]. f_equal.
  repeat (cbn [app flat_map lit list_ascii_of_string]; rewrite <- ?app_assoc). reflexivity.
Qed.

Lemma op_text n x l : lit n <> [] ->
  str "<Operator><Name>" +++ str n +++ str "</Name><Expressions>" +++ Text (flat_map show (x :: l)) +++
  str "</Expressions></Operator>" = Text (show (op_tree n (x :: l))).
Proof.
  intros N. unfold op_tree, el at 1. rewrite show_element. cbn [flat_map]. rewrite show_leaf by exact N.
  unfold el. rewrite show_element. unfold str. cbn [and_then]. f_equal.
  repeat (cbn [app flat_map show_attributes lit list_ascii_of_string]; rewrite <- ?app_assoc). reflexivity.
Qed.


Lemma number_text n : n <> PyComplex ->
  write_number_node n = Text (show (el "Number"
        [match n with
         | PyInt z => el "Integer" [leaf "Size" (show_int 64); leaf "Value" (show_int z)]
         | PyLong z => el "Integer" [leaf "Size" (show_int 64); leaf "Value" (show_int (as_long_long z))]
         | PyFloat x => el "Float" [leaf "Size" (show_int 64); leaf "Value" (show_double x)]
         | PyComplex => el "None" []
         end])).
Proof.
  intros N. assert (S : show_int 64 = lit "64") by reflexivity.
  assert (G : forall k t, t <> [] ->
    show (el "Number" [el k [leaf "Size" (lit "64"); leaf "Value" t]]) =
    lit "<Number><" ++ lit k ++ lit "><Size>" ++ lit "64" ++ lit "</Size><Value>" ++ t ++ lit "</Value></" ++ lit k ++ lit "></Number>").
  { intros k t T. unfold el at 1 2. rewrite !show_element. cbn [flat_map]. rewrite show_element. cbn [flat_map].
    rewrite (show_leaf "Value") by exact T. rewrite show_leaf by discriminate.
    repeat (cbn [app flat_map show_attributes lit list_ascii_of_string]; rewrite <- ?app_assoc). reflexivity. }
  destruct n; unfold write_number_node; rewrite ?S, ?G by auto using show_int_nonempty, show_double_nonempty;
    [| | |congruence]; unfold str; cbn [and_then]; f_equal;
    repeat (cbn [app lit list_ascii_of_string]; rewrite <- ?app_assoc); reflexivity.
Qed.

Lemma wrap1 n p w x : w = Text (show x) ->
  open_at n p +++ w +++ Text (lit "</" ++ lit n ++ lit ">") = Text (show (Element (lit n) (places p) [x])).
Proof. intros ->. apply wrap. Qed.

Lemma expr_text e : python e -> problems e = [] -> write_expression_node e = Text (show (tree e)).
Proof.
  induction e as [p x|p n|p s|p|p f l k a b _ IHl|p op e IH|p e op f IHe IHf|p op l IH|p e ops l IHe IHl|p e i IHe IHi|p e x IH|p k]
    using py_induction;
  intros W H; cbn [problems] in H; 
  cbn [write_expression_node tree expr_pos];
  change (str "</Expression>") with (Text (lit "</" ++ lit "Expression" ++ lit ">"));
  apply wrap1.
  - inversion W; subst. apply name_text; assumption.
  - apply number_text. intros ->. discriminate H.
  - inversion W; subst. apply string_text; assumption.
  - discriminate H.
  - destruct k; [|discriminate]. destruct a; [discriminate|]. destruct b; [discriminate|].
    apply app_eq_nil in H. destruct H as [F L]. destruct f; try discriminate F.
    inversion W as [| | | | | | |? ? ? ? ? ? Wp Wf Wl| | | | | | |]; subst. inversion Wf; subst.
    rewrite name_text by assumption.
    unfold el at 1. rewrite show_element. cbn [flat_map].
    assert (A : write_expressions_node write_expression_node l =
      Text (show (el "Expressions" (match l with Some l => map tree l | None => [] end)))).
    { destruct l as [[|y l]|]; [discriminate L| |reflexivity].
      cbn [write_expressions_node]. rewrite (concat_text _ tree).
      - cbn [map]. rewrite <- wrap_el. reflexivity.
      - specialize (IHl _ eq_refl). specialize (Wl _ eq_refl). apply flat_map_nil in L.
        rewrite Forall_forall in *. auto. }
    rewrite A. unfold str. cbn [and_then]. f_equal.
    repeat (cbn [app lit list_ascii_of_string show_attributes flat_map]; rewrite <- ?app_assoc). reflexivity.
  - inversion W; subst. rewrite IH by assumption. unfold str at 4.
    rewrite <- op_text by (destruct op; discriminate). cbn [flat_map]. rewrite app_nil_r. reflexivity.
  - inversion W; subst. apply app_eq_nil in H. destruct H. rewrite IHe, IHf by assumption.
    rewrite <- op_text by (destruct op; discriminate). cbn [flat_map]. rewrite app_nil_r.
    unfold str. cbn [and_then]. rewrite <- !app_assoc. reflexivity.
  - destruct l as [|y l]; [discriminate H|].
    inversion W as [| | | | | | | | | |? ? ? Wp Wl| | | |]; subst.
    cbn [write_expressions_node]. rewrite (concat_text _ tree).
    2:{ apply flat_map_nil in H. rewrite Forall_forall in *. auto. }
    cbn [map]. rewrite <- op_text by (destruct op; discriminate).
    unfold str. cbn [and_then]. f_equal.
    repeat (cbn [app lit list_ascii_of_string]; rewrite <- ?app_assoc). reflexivity.
  - destruct ops as [|op [|]]; try discriminate H. destruct l as [|f [|]]; try discriminate H.
    apply app_eq_nil in H. destruct H as [O H]. apply app_eq_nil in H. destruct H as [E F].
    inversion W as [| | | | | | | | | | |? ? ? ? Wp We Wl| | |]; subst. apply Forall_inv in Wl, IHl.
    rewrite IHe, IHl by assumption.
    destruct op; try discriminate O; cbn [comparison_name];
    rewrite <- op_text by discriminate; cbn [flat_map]; rewrite app_nil_r;
    unfold str; cbn [and_then]; rewrite <- !app_assoc; reflexivity.
  - destruct i as [i|]; [|apply app_eq_nil in H; destruct H; discriminate].
    apply app_eq_nil in H. destruct H as [E F].
    inversion W as [| | | | | | | | | | | |? ? ? Wp We Wi| |]; subst.
    rewrite IHe, (IHi i eq_refl) by auto.
    rewrite <- wrap_el. cbn [flat_map]. rewrite app_nil_r. unfold str. cbn [and_then]. rewrite <- !app_assoc. reflexivity.
  - inversion W; subst. rewrite IH, name_text by assumption.
    rewrite <- wrap_el. cbn [flat_map]. rewrite app_nil_r. unfold str. cbn [and_then]. rewrite <- !app_assoc. reflexivity.
  - discriminate H.
Qed.

Lemma stmt_nodes_text l :
  Forall (fun x => write_statement x = Text (show (stmt_tree x))) l ->
  write_statement_nodes write_statement l = Text (show (el "Statements" (map stmt_tree l))).
Proof.
  intros H. destruct l as [|x l]; [reflexivity|]. cbn [write_statement_nodes].
  rewrite (concat_text _ stmt_tree) by exact H. cbn [map]. rewrite <- wrap_el. reflexivity.
Qed.

Lemma stmt_nodes_text' l :
  Forall (fun x => python_stmt x -> stmt_problems x = [] -> write_statement x = Text (show (stmt_tree x))) l ->
  Forall python_stmt l -> flat_map stmt_problems l = [] ->
  write_statement_nodes write_statement l = Text (show (el "Statements" (map stmt_tree l))).
Proof.
  intros A B C. apply stmt_nodes_text. apply flat_map_nil in C. rewrite Forall_forall in *. auto.
Qed.

Lemma stmt_text x : python_stmt x -> stmt_problems x = [] -> write_statement x = Text (show (stmt_tree x)).
Proof.
  induction x as [p e|p l e|p c t f IHt IHf|p c t f IHt IHf|p y a b d IH|p e|p k] using pystmt_induction;
  intros W H; inversion W; subst; cbn [stmt_problems] in H;
  cbn [write_statement stmt_tree stmt_pos];
  change (str "</Statement>") with (Text (lit "</" ++ lit "Statement" ++ lit ">"));
  apply wrap1.
  - apply expr_text; assumption.
  - destruct l as [|[] [|]]; try discriminate H. 
    match goal with K : Forall python _ |- _ => apply Forall_inv in K; pose proof (expr_text _ K eq_refl) as T end.
    rewrite <- wrap_el, T. rewrite (expr_text e) by assumption.
    cbn [flat_map]. rewrite app_nil_r. unfold str. cbn [and_then]. rewrite <- !app_assoc. reflexivity.
  - apply app_eq_nil in H. destruct H as [C H]. apply app_eq_nil in H. destruct H as [T F].
    rewrite expr_text by assumption.
    rewrite !stmt_nodes_text' by assumption.
    rewrite <- wrap_el. cbn [flat_map]. rewrite app_nil_r. unfold str. cbn [and_then]. rewrite <- !app_assoc. reflexivity.
  - apply app_eq_nil in H. destruct H as [C H]. apply app_eq_nil in H. destruct H as [T F].
    rewrite expr_text by assumption.
    rewrite !stmt_nodes_text' by assumption.
    rewrite <- wrap_el. cbn [flat_map]. rewrite app_nil_r. unfold str. cbn [and_then]. rewrite <- !app_assoc. reflexivity.
  - apply app_eq_nil in H. destruct H as [A B].
    rewrite name_text by assumption.
    rewrite !stmt_nodes_text' by assumption.
    assert (E : write_expression_nodes write_expression_node (args a) = Text (show (el "Expressions" (map tree (args a))))).
    { destruct (args a) as [|y0 l]; [reflexivity|]. cbn [write_expression_nodes]. rewrite (concat_text _ tree).
      - cbn [map]. rewrite <- wrap_el. reflexivity.
      - apply flat_map_nil in A. rewrite Forall_forall in *. intros z Z. apply expr_text; auto. }
    rewrite E.
    rewrite <- wrap_el. cbn [flat_map]. rewrite app_nil_r. unfold str. cbn [and_then]. rewrite <- !app_assoc. reflexivity.
  - destruct e as [e|]; [|reflexivity]. rewrite expr_text by auto.
    rewrite <- wrap_el. cbn [flat_map]. rewrite app_nil_r. reflexivity.
  - discriminate H.
Qed.

(** ** The name of the source *)

Definition rep (c : ascii) (n : text) (t : text) : text := flat_map (fun d => if Ascii.eqb d c then n else [d]) t.
Lemma starts_one s c : starts_with s [c] = match s with d :: _ => Ascii.eqb d c | [] => false end.
Proof. destruct s as [|d s]; [reflexivity|]. cbn [starts_with]. rewrite (Ascii.eqb_sym c d). destruct s, (Ascii.eqb d c); reflexivity. Qed.
Lemma replace_one s c n : replace s [c] n = rep c n s.
Proof.
  cbn [replace]. induction s as [|d s IH]; [reflexivity|]. cbn [replace_loop]. rewrite starts_one. cbn [pred length].
  rewrite IH. unfold rep. cbn [flat_map]. destruct (Ascii.eqb d c); reflexivity.
Qed.
Lemma escape_esc s : escape s = esc s.
Proof.
  unfold escape. change (lit "&") with ["&"%char]. change (lit "<") with ["<"%char]. change (lit ">") with [">"%char].
  change (lit """") with [""""%char]. change (lit "'") with ["'"%char]. rewrite !replace_one.
  induction s as [|d s IH]; [reflexivity|].
  assert (A : forall c n a b, rep c n (a ++ b) = rep c n a ++ rep c n b) by (intros; apply flat_map_app).
  change (d :: s) with ([d] ++ s). rewrite !A, IH. unfold esc. rewrite flat_map_app. f_equal.
  destruct d as [[] [] [] [] [] [] [] []]; reflexivity.
Qed.

Lemma esc_no_null t : Forall (fun c => c <> "000"%char) t -> Forall (fun c => c <> "000"%char) (esc t).
Proof.
  induction 1 as [|c t A _ IH]; [constructor|]. unfold esc. cbn [flat_map]. apply Forall_app. split; [|exact IH].
  destruct c as [[] [] [] [] [] [] [] []]; try congruence; repeat constructor; discriminate.
Qed.

Lemma printable_no_null t : printable t -> Forall (fun c => c <> "000"%char) t.
Proof. intros H. eapply Forall_impl; [|exact H]. intros c A ->. assert (L : code "000" = 0) by reflexivity. cbv beta in A. lia. Qed.

Lemma script_text src body : printable src -> Forall python_stmt body -> flat_map stmt_problems body = [] ->
  write_script src body = Text (declaration ++ show (script_tree src body)).
Proof.
  intros S W H. unfold write_script. rewrite escape_esc, c_string_id by auto using esc_no_null, printable_no_null.
  rewrite stmt_nodes_text'; [|apply Forall_forall; intros; apply stmt_text; assumption|assumption|assumption].
  unfold script_tree. rewrite show_element. unfold show_attributes. cbn [flat_map]. unfold show_attribute. cbn [fst snd].
  unfold str. cbn [and_then]. f_equal. f_equal.
  repeat (cbn [app lit list_ascii_of_string]; rewrite <- ?app_assoc). reflexivity.
Qed.

(** ** The XML is well formed *)

Lemma nat_code c : Z.of_nat (nat_of_ascii c) = code c. Proof. reflexivity. Qed.

Lemma no_bracket t : Forall (fun c => c <> "]"%char) t -> forall a b, t <> a ++ lit "]]>" ++ b.
Proof.
  intros H a b ->. apply Forall_app in H. destruct H as [_ H]. cbn [lit list_ascii_of_string app] in H.
  apply Forall_inv in H. congruence.
Qed.

Lemma plain_data t : plain_text t -> data_text t.
Proof.
  intros [A B]. split; [|exact B]. eapply Forall_impl; [|exact A].
  intros c (C & L & M). unfold data_char. repeat split; auto.
  - destruct c as [[] [] [] [] [] [] [] []]; unfold code in C; cbn in C; reflexivity || lia.
  - intros ->. assert (K : code "013" = 13) by reflexivity. lia.
Qed.
Lemma sober_data t : Forall sober t -> data_text t.
Proof.
  intros H. apply plain_data. split.
  - eapply Forall_impl; [|exact H]. intros c (A & B & C & D). repeat split; auto.
  - apply no_bracket. eapply Forall_impl; [|exact H]. intros c (A & B & C & D). exact D.
Qed.

Lemma good_el n l : xml_name (lit n) = true -> Forall good l -> good (el n l).
Proof. intros N H. apply G_elements; auto. Qed.
Lemma good_leaf n t : xml_name (lit n) = true -> data_text t -> good (leaf n t).
Proof.
  intros N H. unfold leaf. destruct t; [apply good_el; auto|]. apply G_text; auto. discriminate.
Qed.
Lemma places_ok p : Forall attribute_ok (places p).
Proof.
  assert (V : forall z, Forall value_char (show_int z)).
  { intros z. eapply Forall_impl; [|apply show_int_sober]. intros c (A & _). unfold value_char, code in *. lia. }
  repeat constructor; apply V.
Qed.
Lemma good_at n p x : xml_name (lit n) = true -> good x -> good (Element (lit n) (places p) [x]).
Proof. intros N H. apply G_elements; auto using places_ok. Qed.
Lemma good_op n l : data_text (lit n) -> Forall good l -> good (op_tree n l).
Proof.
  intros N H. apply good_el; [reflexivity|]. constructor; [apply good_leaf; auto|].
  constructor; [apply good_el; auto|constructor].
Qed.
Lemma identifier_data x : identifier x -> data_text x.
Proof. intros H. apply sober_data, identifier_chars, H. Qed.

Ltac goods := repeat lazymatch goal with
  | |- Forall good [] => apply Forall_nil
  | |- Forall good (_ :: _) => apply Forall_cons
  | |- good (el _ _) => apply good_el; [reflexivity|]
  | |- good (leaf _ _) => apply good_leaf; [reflexivity|]
  end.
Ltac op_sober op := apply sober_data; destruct op; repeat constructor; discriminate.

Lemma tree_good e : python e -> good (tree e).
Proof.
  induction e as [p x|p n|p s|p|p f l k a b _ IHl|p op e IH|p e op f IHe IHf|p op l IH|p e ops l IHe IHl|p e i IHe IHi|p e x IH|p k]
    using py_induction; intros W; cbn [tree expr_pos].

  - inversion W; subst. apply good_at; [reflexivity|]. apply good_leaf, identifier_data; auto.
  - apply good_at; [reflexivity|]. destruct n; goods; apply sober_data;
      auto using show_int_sober, show_double_sober.
  - inversion W; subst. apply good_at; [reflexivity|]. apply good_leaf, plain_data; auto.
  - apply good_at; [reflexivity|]. goods.
  - inversion W as [| | | | | | |? ? ? ? ? ? Wp Wf Wl| | | | | | |]; subst.
    apply good_at; [reflexivity|]. goods.
    + destruct f; try (apply sober_data; constructor). inversion Wf; subst. apply identifier_data; auto.
    + destruct l as [l|]; [|constructor]. specialize (IHl _ eq_refl). specialize (Wl _ eq_refl).
      apply Forall_map. rewrite Forall_forall in *. auto.
  - inversion W; subst. apply good_at; [reflexivity|]. apply good_op; [op_sober op|]. goods. auto.
  - inversion W; subst. apply good_at; [reflexivity|]. apply good_op; [op_sober op|]. goods; auto.
  - inversion W as [| | | | | | | | | |? ? ? Wp Wl| | | |]; subst. apply good_at; [reflexivity|].
    apply good_op; [op_sober op|]. apply Forall_map. rewrite Forall_forall in *. auto.
  - inversion W as [| | | | | | | | | | |? ? ? ? Wp We Wl| | |]; subst. apply good_at; [reflexivity|].
    apply good_op; [destruct ops as [|op ops]; [apply sober_data; constructor|op_sober op]|].
    constructor; [auto|]. destruct l; constructor; [|constructor]. apply Forall_inv in Wl, IHl. auto.
  - inversion W as [| | | | | | | | | | | |? ? ? Wp We Wi| |]; subst. apply good_at; [reflexivity|].
    apply good_el; [reflexivity|]. constructor; [auto|]. destruct i; goods. auto.
  - inversion W; subst. apply good_at; [reflexivity|]. goods; [auto|]. apply identifier_data; auto.
  - apply good_at; [reflexivity|]. goods.
Qed.

Lemma trees_good l : Forall python l -> Forall good (map tree l).
Proof. intros H. apply Forall_map. eapply Forall_impl; [|exact H]. apply tree_good. Qed.

Lemma stmt_tree_good x : python_stmt x -> good (stmt_tree x).
Proof.
  assert (S : forall l, Forall (fun x => python_stmt x -> good (stmt_tree x)) l -> Forall python_stmt l ->
              Forall good (map stmt_tree l)).
  { intros l A B. apply Forall_map. rewrite Forall_forall in *. auto. }
  induction x as [p e|p l e|p c t f IHt IHf|p c t f IHt IHf|p y a b d IH|p e|p k] using pystmt_induction;
  intros W; inversion W; subst; cbn [stmt_tree stmt_pos]; (apply good_at; [reflexivity|]).
  - apply tree_good; auto.
  - goods; [|apply tree_good; auto]. destruct l; [goods|]. apply tree_good. eapply Forall_inv; eassumption.
  - goods; auto using tree_good.
  - goods; auto using tree_good.
  - goods; auto using trees_good. apply identifier_data; auto.
  - apply good_el; [reflexivity|]. destruct e; goods. apply tree_good; auto.
  - goods.
Qed.

Lemma script_tree_good src body : printable src -> Forall python_stmt body -> good (script_tree src body).
Proof.
  intros S W. apply G_elements; [reflexivity| |].
  - repeat constructor. cbn [snd]. eapply Forall_impl; [|exact S]. intros c A. unfold value_char, code in *. cbv beta in A. lia.
  - goods. apply Forall_map. eapply Forall_impl; [|exact W]. apply stmt_tree_good.
Qed.

(** ** Reading the tree *)

Lemma bind_parsed {A B} (r : parsed A) (f : A -> parsed B) b :
  bind r f = Parsed b <-> exists a, r = Parsed a /\ f a = Parsed b.
Proof. destruct r; simpl; split; try (intros H; discriminate H); try (intros (a0 & E & _); discriminate E); [eauto|]. intros (a0 & E & F). congruence. Qed.

Lemma position_places p : position_ok p -> position (places p) = Parsed p.
Proof.
  intros [A B]. unfold position, places.
  change (attribute "line" _) with (Some (show_int (line p))). change (attribute "col" _) with (Some (show_int (col p))).
  cbv beta iota. unfold read_non_negative. rewrite !read_between_show.
  rewrite !(proj2 (Z.leb_le 0 _)), !(proj2 (Z.leb_le _ (2 ^ 64 - 1))) by lia. cbn [andb valid bind].
  unfold to_int. rewrite !Z.mod_small by lia. destruct p as [li co]. cbn [line col]. f_equal. f_equal; lia.
Qed.

Ltac tags := repeat match goal with
  |- context [is ?s (lit ?t)] => let b := eval vm_compute in (is s (lit t)) in change (is s (lit t)) with b
  end; cbv beta iota.

Lemma simple_leaf n t : is n (lit n) = true -> simple n (leaf n t) = Parsed t.
Proof. intros H. unfold leaf, el. destruct t; cbn [simple]; rewrite H; reflexivity. Qed.

Notation read_in p k s a l := (read_expression s a (Element (lit "Expression") (places p) [Element (lit k) [] l])).

Ltac open_expression P := cbn [read_expression]; tags; rewrite (position_places _ P); cbn [bind].

Lemma read_name s a p x : position_ok p ->
  read_expression s a (Element (lit "Expression") (places p) [leaf "Name" x]) = Parsed (NameVertex p x).
Proof. intros P. unfold leaf, el. open_expression P. fold (el "Name" (match x with [] => [] | _ => [Chars x] end)). fold (leaf "Name" x).
  rewrite simple_leaf by reflexivity. reflexivity. Qed.
Lemma read_string s a p x : position_ok p ->
  read_expression s a (Element (lit "Expression") (places p) [leaf "String" x]) = Parsed (StringVertex p x).
Proof. intros P. unfold leaf, el. open_expression P. fold (el "String" (match x with [] => [] | _ => [Chars x] end)). fold (leaf "String" x).
  rewrite simple_leaf by reflexivity. reflexivity. Qed.
Lemma read_num s a p x : position_ok p ->
  read_in p "Number" s a [x] = let* v := read_number x in Parsed (NumberVertex p v).
Proof. intros P. open_expression P. reflexivity. Qed.
Lemma read_call s a p x l : position_ok p ->
  read_in p "FunctionCall" s a [leaf "Name" x; el "Expressions" l] =
  let* l := each (read_expression s a) l in Parsed (FunctionCallVertex p x l).
Proof. intros P. open_expression P. rewrite simple_leaf by reflexivity. reflexivity. Qed.
Lemma read_op s a p n l : position_ok p ->
  read_expression s a (Element (lit "Expression") (places p) [op_tree n l]) =
  let* l := each (read_expression s a) l in post_operator p (lit n) l.
Proof. intros P. unfold op_tree, el at 1. open_expression P. rewrite simple_leaf by reflexivity. reflexivity. Qed.
Lemma read_subscript s a p e f : position_ok p ->
  read_in p "Subscript" s a [e; f] =
            let* e := read_expression (S s) a e in
            let* _ := assert_ (S s =? 1)%nat in
            let* f := read_expression (S s) a f in
            let* _ := assert_ (S s =? 1)%nat in
            Parsed (SubscriptVertex p e f).
Proof. intros P. open_expression P. reflexivity. Qed.
Lemma read_attribute s a p e x : position_ok p ->
  read_in p "Attribute" s a [e; leaf "Name" x] =
            let* e := read_expression s (S a) e in
            let* _ := assert_ (S a =? 1)%nat in
            let* _ := assert_ (S a =? 1)%nat in
            Parsed (AttributeVertex p e x).
Proof. intros P. open_expression P. rewrite simple_leaf by reflexivity. reflexivity. Qed.

Definition zone (n : nat) : bool := match n with O => false | _ => true end.

Definition reads (e : py_expr) : Prop := forall s a v,
  read_expression s a (tree e) = Parsed v <-> denotes (zone s) (zone a) e v.

Lemma reads_all l : Forall reads l -> forall s a v,
  each (read_expression s a) (map tree l) = Parsed v <-> denotes_all (zone s) (zone a) l v.
Proof.
  intros H s a. induction H as [|e l A _ IH]; intros v; cbn [map each].
  - split; [intros [= <-]; constructor|]. inversion 1. reflexivity.
  - rewrite bind_parsed. split.
    + intros (v0 & B & C). apply bind_parsed in C. destruct C as (w & D & [= <-]).
      constructor; [apply A, B|apply IH, D].
    + inversion 1 as [|? ? ? ? v0 w B C]; subst. exists v0. split; [apply A, B|].
      apply bind_parsed. exists w. split; [apply IH, C|reflexivity].
Qed.

Lemma read_integer_number z :
  read_number (el "Integer" [leaf "Size" (show_int 64); leaf "Value" (show_int z)]) =
  if (- 2 ^ 31 <=? z) && (z <=? 2 ^ 31 - 1) then Parsed (NumberInt S64 z) else ParseError.
Proof.
  unfold el. cbn [read_number]. tags. rewrite !simple_leaf by reflexivity. cbn [bind].
  change (read_positive (show_int 64)) with (Some 64). cbn [valid bind].
  unfold read_int. rewrite read_between_show.
  destruct ((- 2 ^ 31 <=? z) && (z <=? 2 ^ 31 - 1)) eqn:E; [|reflexivity]. cbn [valid bind].
  apply andb_true_iff in E. rewrite !Z.leb_le in E. unfold post_integer. cbn [Z.eqb Pos.eqb]. unfold wrapped. f_equal. f_equal.
  change (conv S64 z) with ((z - - 2 ^ 63) mod 2 ^ 64 + - 2 ^ 63). rewrite Z.mod_small by lia. lia.
Qed.

Lemma read_float_number x :
  read_number (el "Float" [leaf "Size" (show_int 64); leaf "Value" (show_double x)]) =
  match read_double (show_double x) with Some y => Parsed (NumberFloat Double y) | None => ParseError end.
Proof.
  unfold el. cbn [read_number]. tags. rewrite !simple_leaf by reflexivity. cbn [bind].
  change (read_positive (show_int 64)) with (Some 64). cbn [valid bind].
  destruct (read_double (show_double x)); reflexivity.
Qed.

Lemma post_unary p op v : post_operator p (lit (unary_name op)) [v] = Parsed (op_vertex p (unary_operator op) [v]).
Proof. destruct op; reflexivity. Qed.
Lemma post_binary p op v w : post_operator p (lit (binary_name op)) [v; w] = Parsed (op_vertex p (binary_operator op) [v; w]).
Proof. destruct op; reflexivity. Qed.
Lemma post_boolean p op v w : post_operator p (lit (boolean_name op)) [v; w] = Parsed (op_vertex p (boolean_operator op) [v; w]).
Proof. destruct op; reflexivity. Qed.
Lemma post_boolean_other p op l : length l <> 2%nat -> post_operator p (lit (boolean_name op)) l = Fails.
Proof. intros H. destruct l as [|v [|w [|u l]]]; cbn [length] in H; try congruence; destruct op; reflexivity. Qed.
Lemma post_comparison p op n m v w : comparison_operator op n m ->
  comparison_name op = Some n /\ post_operator p (lit n) [v; w] = Parsed (op_vertex p (n, m) [v; w]).
Proof. intros []; split; reflexivity. Qed.
Lemma comparison_known op n : comparison_name op = Some n -> exists m, comparison_operator op n m.
Proof. destruct op; cbn; intros [= <-]; eexists; constructor. Qed.

Lemma denotes_all_length s a l v : denotes_all s a l v -> length v = length l.
Proof. revert v. induction l; inversion 1; subst; cbn; [reflexivity|]. f_equal. auto. Qed.

Lemma expr_reads e : python e -> problems e = [] -> reads e.
Proof.
  induction e as [p x|p n|p s|p|p f l k a b _ IHl|p op e IH|p e op f IHe IHf|p op l IH|p e ops l IHe IHl|p e i IHe IHi|p e x IH|p k]
    using py_induction; intros W H; cbn [problems] in H; intros sd ad v; cbn [tree expr_pos].
  - inversion W; subst. rewrite read_name by assumption. split; [intros [= <-]; constructor|]. inversion 1. reflexivity.
  - unfold el at 1. inversion W; subst; try discriminate H; rewrite read_num by assumption.
    + rewrite read_integer_number. destruct (_ && _) eqn:E.
      * apply andb_true_iff in E. rewrite !Z.leb_le in E. cbn [bind]. split; [intros [= <-]; constructor; lia|].
        inversion 1. reflexivity.
      * apply andb_false_iff in E. rewrite !Z.leb_gt in E. split; [discriminate|]. inversion 1; subst. lia.
    + assert (Q : as_long_long z = z).
      { unfold as_long_long. rewrite !(proj2 (Z.leb_le _ _)) by lia. reflexivity. }
      rewrite Q, read_integer_number. destruct (_ && _) eqn:E.
      * apply andb_true_iff in E. rewrite !Z.leb_le in E. cbn [bind]. split; [intros [= <-]; constructor; lia|].
        inversion 1. reflexivity.
      * apply andb_false_iff in E. rewrite !Z.leb_gt in E. split; [discriminate|]. inversion 1; subst. lia.
    + rewrite read_float_number. destruct (read_double (show_double x)) as [y|] eqn:E; cbn [bind].
      * split; [intros [= <-]; constructor; exact E|]. inversion 1; subst. congruence.
      * split; [discriminate|]. inversion 1; subst. congruence.
  - inversion W; subst. rewrite read_string by assumption. split; [intros [= <-]; constructor|]. inversion 1. reflexivity.
  - discriminate H.
  - destruct k; [|discriminate]. destruct a; [discriminate|]. destruct b; [discriminate|].
    apply app_eq_nil in H. destruct H as [F L]. destruct f as [q y| | | | | | | | | | |]; try discriminate F.
    inversion W as [| | | | | | |? ? ? ? ? ? Wp Wf Wl| | | | | | |]; subst.
    unfold el at 1. rewrite read_call by assumption. rewrite bind_parsed.
    destruct l as [[|y0 l]|]; [discriminate L| |].
    + assert (R : Forall reads (y0 :: l)).
      { specialize (IHl _ eq_refl). specialize (Wl _ eq_refl). apply flat_map_nil in L. rewrite Forall_forall in *. auto. }
      split.
      * intros (w & A & [= <-]). constructor; [discriminate|]. apply (reads_all _ R), A.
      * inversion 1; subst. eexists. split; [apply (reads_all _ R); eassumption|reflexivity].
    + cbn [each]. split.
      * intros (w & [= <-] & [= <-]). constructor.
      * inversion 1; subst. eexists. split; reflexivity.
  - inversion W; subst. rewrite read_op, bind_parsed by assumption. change [tree e] with (map tree [e]).
    assert (R : Forall reads [e]) by auto. split.
    + intros (w & A & B). apply (reads_all _ R) in A. inversion A as [|? ? ? ? v0 w0 C D]; subst. inversion D; subst.
      rewrite post_unary in B. injection B as <-. constructor; assumption.
    + inversion 1; subst. eexists. split; [apply (reads_all _ R); repeat constructor; eassumption|apply post_unary].
  - inversion W; subst. apply app_eq_nil in H. destruct H as [E F]. rewrite read_op, bind_parsed by assumption.
    change [tree e; tree f] with (map tree [e; f]).
    assert (R : Forall reads [e; f]) by auto. split.
    + intros (w & A & B). apply (reads_all _ R) in A. inversion A as [|? ? ? ? v0 w0 C D]; subst.
      inversion D as [|? ? ? ? v1 w1 C' D']; subst. inversion D'; subst.
      rewrite post_binary in B. injection B as <-. constructor; assumption.
    + inversion 1; subst. eexists. split; [apply (reads_all _ R); repeat constructor; eassumption|apply post_binary].
  - destruct l as [|y l]; [discriminate H|].
    inversion W as [| | | | | | | | | |? ? ? Wp Wl| | | |]; subst.
    rewrite read_op, bind_parsed by assumption.
    assert (R : Forall reads (y :: l)).
    { apply flat_map_nil in H. rewrite Forall_forall in *. auto. }
    split.
    + intros (w & A & B). apply (reads_all _ R) in A. pose proof (denotes_all_length _ _ _ _ A) as N.
      destruct (Nat.eq_dec (length w) 2) as [M|M].
      * inversion A as [|? ? ? ? v0 w0 C D]; subst. destruct l as [|f [|]]; cbn [length] in *; try lia.
        inversion D as [|? ? ? ? v1 w1 C' D']; subst. inversion D'; subst.
        rewrite post_boolean in B. injection B as <-. constructor; assumption.
      * rewrite post_boolean_other in B by exact M. discriminate B.
    + inversion 1; subst. eexists. split; [apply (reads_all _ R); repeat constructor; eassumption|apply post_boolean].
  - destruct ops as [|op [|]]; try discriminate H. destruct l as [|f [|]]; try discriminate H.
    apply app_eq_nil in H. destruct H as [O H]. apply app_eq_nil in H. destruct H as [E F].
    inversion W as [| | | | | | | | | | |? ? ? ? Wp We Wl| | |]; subst. apply Forall_inv in Wl, IHl.
    assert (R : Forall reads [e; f]) by auto.
    destruct (comparison_name op) as [n|] eqn:N; [|destruct op; discriminate].
    destruct (comparison_known _ _ N) as [m M].
    rewrite read_op, bind_parsed by assumption. change [tree e; tree f] with (map tree [e; f]). split.
    + intros (w & A & B). apply (reads_all _ R) in A. inversion A as [|? ? ? ? v0 w0 C D]; subst.
      inversion D as [|? ? ? ? v1 w1 C' D']; subst. inversion D'; subst.
      destruct (post_comparison p op n m v0 v1 M) as [_ Q]. rewrite Q in B. injection B as <-. econstructor; eassumption.
    + inversion 1 as [| | | | | | | | | |? ? ? ? n' m' ? ? v0 w0 M' A B| |]; subst.
      exists [v0; w0]. split; [apply (reads_all _ R); repeat constructor; assumption|].
      destruct (post_comparison p op n' m' v0 w0 M') as [N' Q]. rewrite N in N'. injection N' as ->. exact Q.
  - destruct i as [i|]; [|apply app_eq_nil in H; destruct H; discriminate].
    apply app_eq_nil in H. destruct H as [E F].
    inversion W as [| | | | | | | | | | | |? ? ? Wp We Wi| |]; subst.
    specialize (IHe We E). specialize (IHi i eq_refl (Wi _ eq_refl) F).
    unfold el. rewrite read_subscript, bind_parsed by assumption. destruct sd as [|sd].
    + cbn [Nat.eqb assert_ bind zone]. split.
      * intros (v0 & A & B). apply bind_parsed in B. destruct B as (w0 & B & [= <-]).
        constructor; [apply (IHe 1%nat), A|apply (IHi 1%nat), B].
      * inversion 1; subst. eexists. split; [apply (IHe 1%nat); eassumption|].
        apply bind_parsed. eexists. split; [apply (IHi 1%nat); eassumption|reflexivity].
    + cbn [Nat.eqb assert_ bind zone]. split; [|inversion 1]. intros (v0 & _ & B). discriminate B.
  - inversion W; subst. specialize (IH ltac:(assumption) H).
    unfold el. rewrite read_attribute, bind_parsed by assumption. destruct ad as [|ad].
    + cbn [Nat.eqb assert_ bind zone]. split.
      * intros (v0 & A & [= <-]). constructor. apply (IH sd 1%nat), A.
      * inversion 1; subst. eexists. split; [apply (IH sd 1%nat); eassumption|reflexivity].
    + cbn [Nat.eqb assert_ bind zone]. split; [|inversion 1]. intros (v0 & _ & B). discriminate B.
  - discriminate H.
Qed.

Definition reads_stmt (x : py_stmt) : Prop := forall v, read_statement (stmt_tree x) = Parsed v <-> denotes_stmt x v.

Lemma reads_stmts l : Forall reads_stmt l -> forall v,
  each read_statement (map stmt_tree l) = Parsed v <-> denotes_stmts l v.
Proof.
  induction 1 as [|x l A _ IH]; intros v; cbn [map each].
  - split; [intros [= <-]; constructor|]. inversion 1. reflexivity.
  - rewrite bind_parsed. split.
    + intros (v0 & B & C). apply bind_parsed in C. destruct C as (w & D & [= <-]).
      constructor; [apply A, B|apply IH, D].
    + inversion 1 as [|? ? v0 w B C]; subst. exists v0. split; [apply A, B|].
      apply bind_parsed. exists w. split; [apply IH, C|reflexivity].
Qed.

Lemma denotes_nonempty l v : l <> [] -> denotes_stmts l v -> nonempty v = true.
Proof. intros N. inversion 1; subst; [congruence|reflexivity]. Qed.

Notation stmt_in p k l := (read_statement (Element (lit "Statement") (places p) [Element (lit k) [] l])).
Ltac open_statement P := cbn [read_statement]; tags; rewrite (position_places _ P); cbn [bind].

Lemma stmt_expr p e : position_ok p ->
  read_statement (Element (lit "Statement") (places p) [tree e]) =
  let* v := read_expression 0 0 (tree e) in Parsed (ExpressionVertex (set_position p v)).
Proof.
  intros P. assert (T : exists m l, tree e = Element (lit "Expression") m l) by (destruct e; eexists; eexists; reflexivity).
  destruct T as (m & l & ->). remember (Element (lit "Expression") m l) as x eqn:E.
  assert (G : read_statement (Element (lit "Statement") (places p) [Element (lit "Expression") m l]) =
    let* v := read_expression 0 0 (Element (lit "Expression") m l) in Parsed (ExpressionVertex (set_position p v))).
  { unfold read_statement at 1. fold read_statement. tags. rewrite (position_places _ P). reflexivity. }
  rewrite E. exact G.
Qed.
Lemma stmt_assign p e f : position_ok p ->
  stmt_in p "Assignment" [e; f] =
  let* t := read_expression 0 0 e in let* e := read_expression 0 0 f in Parsed (AssignmentVertex p t e).
Proof. intros P. open_statement P. reflexivity. Qed.
Lemma stmt_if p c t f : position_ok p ->
  stmt_in p "If" [c; el "Statements" t; el "Statements" f] =
            let* c := read_expression 0 0 c in
            let* t := each read_statement t in
            let* _ := assert_ (nonempty t) in
            let* f := each read_statement f in
            Parsed (IfVertex p c t f).
Proof. intros P. open_statement P. reflexivity. Qed.
Lemma stmt_while p c t f : position_ok p ->
  stmt_in p "While" [c; el "Statements" t; el "Statements" f] =
            let* c := read_expression 0 0 c in
            let* t := each read_statement t in
            let* _ := assert_ (nonempty t) in
            let* f := each read_statement f in
            Parsed (WhileVertex p c t f).
Proof. intros P. open_statement P. reflexivity. Qed.
Lemma stmt_def p x l b : position_ok p ->
  stmt_in p "FunctionDefinition" [leaf "Name" x; el "Expressions" l; el "Statements" b] =
            let* l := each (read_expression 0 0) l in
            let* b := each read_statement b in
            let* _ := assert_ (nonempty b) in
            Parsed (FunctionDefinitionVertex p x l b).
Proof. intros P. open_statement P. rewrite simple_leaf by reflexivity. reflexivity. Qed.

Lemma moved_denotes s a p e v : denotes s a e v -> denotes s a (moved p e) (set_position p v).
Proof. intros D. inversion D; subst; cbn [moved set_position op_vertex]; econstructor; eassumption. Qed.
Lemma moved_back s a p e w : denotes s a (moved p e) w -> exists v, denotes s a e v /\ w = set_position p v.
Proof.
  intros D. assert (B : e = moved (expr_pos e) (moved p e)) by (destruct e; reflexivity).
  exists (set_position (expr_pos e) w). split.
  - pose proof (moved_denotes _ _ (expr_pos e) _ _ D) as M. rewrite <- B in M. exact M.
  - inversion D; subst; destruct e; cbn [moved expr_pos] in *; try discriminate;
      match goal with H : _ = _ |- _ => injection H; intros; subst; reflexivity end.
Qed.

Lemma stmt_reads x : python_stmt x -> stmt_problems x = [] -> reads_stmt x.
Proof.
  assert (S : forall l, Forall (fun x => python_stmt x -> stmt_problems x = [] -> reads_stmt x) l -> Forall python_stmt l ->
              flat_map stmt_problems l = [] -> Forall reads_stmt l).
  { intros l A B C. apply flat_map_nil in C. rewrite Forall_forall in *. auto. }
  induction x as [p e|p l e|p c t f IHt IHf|p c t f IHt IHf|p y a b d IH|p e|p k] using pystmt_induction;
  intros W H; cbn [stmt_problems] in H; intros v; cbn [stmt_tree stmt_pos].
  - inversion W; subst. rewrite stmt_expr, bind_parsed by assumption.
    pose proof (expr_reads _ ltac:(eassumption) H 0%nat 0%nat) as R. split.
    + intros (u & A & [= <-]). constructor. apply moved_denotes, R, A.
    + inversion 1; subst. edestruct moved_back as (u & A & ->); [eassumption|]. exists u. split; [apply R, A|reflexivity].
  - destruct l as [|[q x| | | | | | | | | | |] [|]]; try discriminate H. inversion W as [|? ? ? P Wl We| | | | |]; subst.
    apply Forall_inv in Wl. pose proof (expr_reads _ Wl eq_refl 0%nat 0%nat) as R.
    pose proof (expr_reads _ We H 0%nat 0%nat) as Q.
    unfold el. rewrite stmt_assign, bind_parsed by assumption. split.
    + intros (u & A & B). apply R in A. inversion A; subst. apply bind_parsed in B.
      destruct B as (w & B & [= <-]). constructor. apply Q, B.
    + inversion 1; subst. eexists. split; [apply R; constructor|]. apply bind_parsed. eexists. split; [apply Q; eassumption|reflexivity].
  - inversion W as [| |? ? ? ? P Wc Wt Wf Nt| | | |]; subst.
    apply app_eq_nil in H. destruct H as [C H]. apply app_eq_nil in H. destruct H as [T F].
    pose proof (expr_reads _ Wc C 0%nat 0%nat) as R.
    pose proof (reads_stmts _ (S t IHt Wt T)) as Rt. pose proof (reads_stmts _ (S f IHf Wf F)) as Rf.
    unfold el at 1. rewrite stmt_if, bind_parsed by assumption. split.
    + intros (u & A & B). apply bind_parsed in B. destruct B as (w & B & D).
      apply bind_parsed in D. destruct D as ([] & _ & D). apply bind_parsed in D. destruct D as (z & D & [= <-]).
      constructor; [apply R, A|apply Rt, B|apply Rf, D].
    + inversion 1; subst. eexists. split; [apply R; eassumption|]. apply bind_parsed.
      eexists. split; [apply Rt; eassumption|]. rewrite (denotes_nonempty t) by eassumption. cbn [assert_ bind].
      apply bind_parsed. eexists. split; [apply Rf; eassumption|reflexivity].
  - inversion W as [| | |? ? ? ? P Wc Wt Wf Nt| | |]; subst.
    apply app_eq_nil in H. destruct H as [C H]. apply app_eq_nil in H. destruct H as [T F].
    pose proof (expr_reads _ Wc C 0%nat 0%nat) as R.
    pose proof (reads_stmts _ (S t IHt Wt T)) as Rt. pose proof (reads_stmts _ (S f IHf Wf F)) as Rf.
    unfold el at 1. rewrite stmt_while, bind_parsed by assumption. split.
    + intros (u & A & B). apply bind_parsed in B. destruct B as (w & B & D).
      apply bind_parsed in D. destruct D as ([] & _ & D). apply bind_parsed in D. destruct D as (z & D & [= <-]).
      constructor; [apply R, A|apply Rt, B|apply Rf, D].
    + inversion 1; subst. eexists. split; [apply R; eassumption|]. apply bind_parsed.
      eexists. split; [apply Rt; eassumption|]. rewrite (denotes_nonempty t) by eassumption. cbn [assert_ bind].
      apply bind_parsed. eexists. split; [apply Rf; eassumption|reflexivity].
  - inversion W as [| | | |? ? ? ? ? P Wx Wa Wb Nb| |]; subst.
    apply app_eq_nil in H. destruct H as [A B].
    assert (E : Forall reads (args a)).
    { apply flat_map_nil in A. rewrite Forall_forall in *. intros e I. apply expr_reads; auto. }
    pose proof (reads_all _ E 0%nat 0%nat) as Re. pose proof (reads_stmts _ (S b IH Wb B)) as Rb.
    unfold el at 1. rewrite stmt_def, bind_parsed by assumption. split.
    + intros (u & C & D). apply bind_parsed in D. destruct D as (w & D & F).
      apply bind_parsed in F. destruct F as ([] & _ & [= <-]). constructor; [apply Re, C|apply Rb, D].
    + inversion 1; subst. eexists. split; [apply Re; eassumption|]. apply bind_parsed.
      eexists. split; [apply Rb; eassumption|]. rewrite (denotes_nonempty b) by eassumption. reflexivity.
  - inversion W as [| | | | |? ? P We|]; subst. destruct e as [e|].
    + pose proof (expr_reads e (We _ eq_refl) H 0%nat 0%nat) as R.
      assert (G : stmt_in p "Return" [tree e] = let* e := read_expression 0 0 (tree e) in Parsed (ReturnVertex p (Some e))).
      { open_statement P. reflexivity. }
      unfold el. rewrite G, bind_parsed. split.
      * intros (u & A & [= <-]). constructor. apply R, A.
      * inversion 1; subst. eexists. split; [apply R; eassumption|reflexivity].
    + unfold el. open_statement P. split; [intros [= <-]; constructor|]. inversion 1. reflexivity.
  - discriminate H.
Qed.

(** ** Scripts *)

Lemma read_script src body : read_module (script_tree src body) =
  let* b := each read_statement (map stmt_tree body) in Parsed (ModuleVertex src b).
Proof. reflexivity. Qed.

Lemma parse_clean src body : printable src -> Forall python_stmt body -> flat_map stmt_problems body = [] ->
  parse_script src body =
  match (let* b := each read_statement (map stmt_tree body) in Parsed (ModuleVertex src b)) with
  | Parsed m => Tree m | ParseError => Malformed | Fails => Aborts
  end.
Proof.
  intros S W H. unfold parse_script, parse_xml. rewrite (script_text src body S W H).
  rewrite (document_good _ (script_tree_good src body S W)). cbn [valid bind]. rewrite read_script. reflexivity.
Qed.

Lemma parses_iff src body : printable src -> Forall python_stmt body -> flat_map stmt_problems body = [] ->
  forall m, parse_script src body = Tree m <-> exists v, denotes_stmts body v /\ m = ModuleVertex src v.
Proof.
  intros S W H m. rewrite (parse_clean src body S W H).
  assert (R : Forall reads_stmt body).
  { apply flat_map_nil in H. rewrite Forall_forall in *. intros x I. apply stmt_reads; auto. }
  pose proof (reads_stmts _ R) as Q.
  destruct (each read_statement (map stmt_tree body)) as [v| |] eqn:E; cbn [bind]; split.
  - intros [= <-]. exists v. split; [apply Q; reflexivity|reflexivity].
  - intros (w & D & ->). apply Q in D. injection D as ->. reflexivity.
  - discriminate.
  - intros (w & D & ->). apply Q in D. discriminate D.
  - discriminate.
  - intros (w & D & ->). apply Q in D. discriminate D.
Qed.

Lemma denotes_clean e : forall s a v, denotes s a e v -> problems e = [].
Proof.
  induction e as [p x|p n|p s|p|p f l k a b _ IHl|p op e IH|p e op f IHe IHf|p op l IH|p e ops l IHe IHl|p e i IHe IHi|p e x IH|p k]
    using py_induction; intros sd ad v D; inversion D; subst; cbn [problems]; try reflexivity;
    repeat match goal with
    | A : forall s a v, denotes s a ?e v -> _, B : denotes _ _ ?e _ |- _ => specialize (A _ _ _ B)
    end.
  - destruct l0 as [|y l]; [congruence|]. clear D. specialize (IHl _ eq_refl).
    assert (G : forall l v, Forall (fun e => forall s a v, denotes s a e v -> problems e = []) l ->
      denotes_all sd ad l v -> flat_map problems l = []).
    { clear. induction l as [|x l IH]; intros v F A; [reflexivity|]. inversion F; subst. inversion A; subst.
      cbn [flat_map]. erewrite IH by eassumption. match goal with K : forall s a v, denotes s a x v -> _, L : denotes _ _ x _ |- _ => rewrite (K _ _ _ L) end. reflexivity. }
    eapply G; eassumption.
  - exact IH.
  - rewrite IHe, IHf. reflexivity.
  - apply Forall_cons_iff in IH. destruct IH as [A B]. apply Forall_inv in B. cbn [flat_map].
    repeat match goal with
    | A : forall s a v, denotes s a ?e v -> _, B : denotes _ _ ?e _ |- _ => specialize (A _ _ _ B)
    end. rewrite A, B. reflexivity.
  - apply Forall_inv in IHl.
    repeat match goal with
    | A : forall s a v, denotes s a ?e v -> _, B : denotes _ _ ?e _ |- _ => specialize (A _ _ _ B)
    end. rewrite IHe, IHl. match goal with K : comparison_operator _ _ _ |- _ => destruct K; reflexivity end.
  - rewrite IHe. erewrite IHi; [reflexivity|reflexivity|eassumption].
  - exact IH.
Qed.

Lemma denotes_all_clean l : forall s a v, denotes_all s a l v -> flat_map problems l = [].
Proof. induction l; intros s' a' v D; inversion D; subst; cbn [flat_map]; [reflexivity|]. erewrite denotes_clean, IHl by eassumption. reflexivity. Qed.

Lemma denotes_stmt_clean x : forall v, denotes_stmt x v -> stmt_problems x = [].
Proof.
  assert (G : forall l v, Forall (fun x => forall v, denotes_stmt x v -> stmt_problems x = []) l ->
      denotes_stmts l v -> flat_map stmt_problems l = []).
  { clear. induction l as [|x l IH]; intros v F A; [reflexivity|]. inversion F; subst. inversion A; subst.
    cbn [flat_map]. erewrite IH by eassumption. match goal with K : forall v, denotes_stmt x v -> _, L : denotes_stmt x _ |- _ => rewrite (K _ L) end. reflexivity. }
  induction x as [p e|p l e|p c t f IHt IHf|p c t f IHt IHf|p y a b d IH|p e|p k] using pystmt_induction;
    intros v D; inversion D; subst; cbn [stmt_problems];
    try match goal with M : denotes _ _ (moved _ _) _ |- _ => apply moved_back in M; destruct M as (u & M & _) end;
    repeat (erewrite denotes_clean by eassumption); repeat (erewrite denotes_all_clean by eassumption);
    repeat (erewrite G by eassumption); reflexivity.
Qed.
Lemma denotes_stmts_clean l : forall v, denotes_stmts l v -> flat_map stmt_problems l = [].
Proof. induction l; intros v D; inversion D; subst; cbn [flat_map]; [reflexivity|]. erewrite denotes_stmt_clean, IHl by eassumption. reflexivity. Qed.

(** ** Scripts without a tree *)

Definition blame {A} (q : fault) : parsed A := match q with BadNumber => ParseError | BadTree => Fails end.
Definition reading {A} (r : parsed A) (l : list fault) : Prop :=
  match l with [] => exists v, r = Parsed v | q :: _ => r = blame q end.

Lemma reading_bind {A B} (r : parsed A) (f : A -> parsed B) l m :
  reading r l -> (forall v, r = Parsed v -> reading (f v) m) -> reading (bind r f) (l ++ m).
Proof.
  destruct l as [|q l]; cbn [reading app].
  - intros [v ->] H. cbn [bind]. apply H. reflexivity.
  - intros -> _. destruct q; reflexivity.
Qed.
Lemma reading_last {A B} (r : parsed A) (f : A -> parsed B) l :
  reading r l -> (forall v, exists w, f v = Parsed w) -> reading (bind r f) l.
Proof. intros H K. rewrite <- (app_nil_r l). apply reading_bind; [exact H|]. intros v _. apply K. Qed.

Lemma reading_each {X A} (read : X -> parsed A) (f : X -> list fault) l :
  Forall (fun x => reading (read x) (f x)) l -> reading (each read l) (flat_map f l).
Proof.
  induction 1 as [|x l H _ IH]; cbn [each flat_map]; [eexists; reflexivity|].
  apply reading_bind; [exact H|]. intros v _. apply reading_last; [exact IH|]. intros w. eexists. reflexivity.
Qed.

Lemma each_length {X A} (read : X -> parsed A) l : forall v, each read l = Parsed v -> length v = length l.
Proof.
  induction l as [|x l IH]; cbn [each]; intros v H; [injection H as <-; reflexivity|].
  apply bind_parsed in H. destruct H as (a & _ & H). apply bind_parsed in H. destruct H as (w & H & [= <-]).
  cbn [length]. f_equal. apply IH, H.
Qed.

Lemma each_map {X Y A} (read : Y -> parsed A) (g : X -> Y) l : each read (map g l) = each (fun x => read (g x)) l.
Proof. induction l; cbn [map each]; [reflexivity|]. rewrite IHl. reflexivity. Qed.

Definition faulty (e : py_expr) : Prop := forall s a, reading (read_expression s a (tree e)) (faults (zone s) (zone a) e).

Lemma faulty_all l s a : Forall faulty l ->
  reading (each (read_expression s a) (map tree l)) (flat_map (faults (zone s) (zone a)) l).
Proof. intros H. rewrite each_map. apply reading_each. eapply Forall_impl; [|exact H]. intros e F. apply F. Qed.

Lemma expr_faulty e : python e -> problems e = [] -> faulty e.
Proof.
  induction e as [p x|p n|p s|p|p f l k a b _ IHl|p op e IH|p e op f IHe IHf|p op l IH|p e ops l IHe IHl|p e i IHe IHi|p e x IH|p k]
    using py_induction; intros W H; cbn [problems] in H; intros sd ad; cbn [tree expr_pos faults].
  - inversion W; subst. rewrite read_name by assumption. eexists. reflexivity.
  - assert (G : forall z, reading (let* v := read_number (el "Integer" [leaf "Size" (show_int 64); leaf "Value" (show_int z)]) in Parsed (NumberVertex p v))
                (if (- 2 ^ 31 <=? z) && (z <? 2 ^ 31) then [] else [BadNumber])).
    { intros z. rewrite read_integer_number. replace (z <? 2 ^ 31) with (z <=? 2 ^ 31 - 1).
      - destruct (_ && _); [eexists|]; reflexivity.
      - apply eq_true_iff_eq. rewrite Z.leb_le, Z.ltb_lt. lia. }
    unfold el at 1. inversion W; subst; try discriminate H; rewrite read_num by assumption.
    + apply G.
    + assert (Q : as_long_long z = z).
      { unfold as_long_long. rewrite !(proj2 (Z.leb_le _ _)) by lia. reflexivity. }
      rewrite Q. apply G.
    + rewrite read_float_number. destruct (read_double (show_double x)); [eexists|]; reflexivity.
  - inversion W; subst. rewrite read_string by assumption. eexists. reflexivity.
  - discriminate H.
  - destruct k; [|discriminate]. destruct a; [discriminate|]. destruct b; [discriminate|].
    apply app_eq_nil in H. destruct H as [F L].
    inversion W as [| | | | | | |? ? ? ? ? ? Wp Wf Wl| | | | | | |]; subst.
    unfold el at 1. rewrite read_call by assumption. apply reading_last; [|intros; eexists; reflexivity].
    destruct l as [l|]; [|eexists; reflexivity]. apply faulty_all.
    specialize (IHl _ eq_refl). specialize (Wl _ eq_refl).
    destruct l; [constructor|]. apply flat_map_nil in L. rewrite Forall_forall in *. auto.
  - inversion W; subst. rewrite read_op by assumption. cbn [each]. 
    rewrite <- (app_nil_r (faults _ _ e)). apply reading_bind.
    + apply reading_last; [apply IH; assumption|]. intros; eexists; reflexivity.
    + intros v E. apply bind_parsed in E. destruct E as (u & _ & [= <-]). rewrite post_unary. eexists. reflexivity.
  - inversion W; subst. apply app_eq_nil in H. destruct H as [E F]. rewrite read_op by assumption.
    change [tree e; tree f] with (map tree [e; f]). rewrite <- (app_nil_r (_ ++ _)). apply reading_bind.
    + replace (faults (zone sd) (zone ad) e ++ faults (zone sd) (zone ad) f) with (flat_map (faults (zone sd) (zone ad)) [e; f])
        by (cbn [flat_map]; rewrite app_nil_r; reflexivity).
      apply faulty_all. auto.
    + intros v V. apply each_length in V. cbn in V. destruct v as [|v0 [|v1 [|]]]; cbn in V; try lia.
      rewrite post_binary. eexists. reflexivity.
  - destruct l as [|y l]; [discriminate H|].
    inversion W as [| | | | | | | | | |? ? ? Wp Wl| | | |]; subst. rewrite read_op by assumption.
    apply reading_bind.
    + apply faulty_all. apply flat_map_nil in H. rewrite Forall_forall in *. auto.
    + intros v V. apply each_length in V. rewrite map_length in V.
      destruct (Nat.eqb_spec (length (y :: l)) 2) as [E|E]; cbn [reading].
      * destruct v as [|v0 [|v1 [|]]]; cbn in *; try lia. rewrite post_boolean. eexists. reflexivity.
      * apply post_boolean_other. rewrite V. exact E.
  - destruct ops as [|op [|]]; try discriminate H. destruct l as [|f [|]]; try discriminate H.
    apply app_eq_nil in H. destruct H as [O H]. apply app_eq_nil in H. destruct H as [E F].
    inversion W as [| | | | | | | | | | |? ? ? ? Wp We Wl| | |]; subst. apply Forall_inv in Wl, IHl.
    rewrite read_op by assumption. change [tree e; tree f] with (map tree [e; f]).
    rewrite <- (app_nil_r (_ ++ _)). apply reading_bind.
    + change (faults (zone sd) (zone ad) e ++ flat_map (faults (zone sd) (zone ad)) [f]) with (flat_map (faults (zone sd) (zone ad)) [e; f]).
      apply faulty_all. auto.
    + intros v V. apply each_length in V. cbn in V. destruct v as [|v0 [|v1 [|]]]; cbn in V; try lia.
      destruct op; try discriminate O; eexists; reflexivity.
  - destruct i as [i|]; [|apply app_eq_nil in H; destruct H; discriminate].
    apply app_eq_nil in H. destruct H as [E F].
    inversion W as [| | | | | | | | | | | |? ? ? Wp We Wi| |]; subst.
    specialize (IHe We E). specialize (IHi i eq_refl (Wi _ eq_refl) F).
    unfold el. rewrite read_subscript by assumption. apply reading_bind; [apply (IHe (S sd))|].
    intros v _. destruct sd as [|sd]; cbn [zone Nat.eqb assert_ bind app]; [|reflexivity].
    apply reading_last; [apply (IHi 1%nat)|]. intros; eexists; reflexivity.
  - inversion W; subst. specialize (IH ltac:(assumption) H).
    unfold el. rewrite read_attribute by assumption. apply reading_bind; [apply (IH sd (S ad))|].
    intros v _. destruct ad as [|ad]; cbn [zone Nat.eqb assert_ bind]; [eexists|]; reflexivity.
  - discriminate H.
Qed.

Definition faulty_stmt (x : py_stmt) : Prop := reading (read_statement (stmt_tree x)) (stmt_faults x).

Lemma faulty_stmts l : Forall faulty_stmt l ->
  reading (each read_statement (map stmt_tree l)) (flat_map stmt_faults l).
Proof. intros H. rewrite each_map. apply reading_each, H. Qed.

Lemma each_nonempty {X A} (read : X -> parsed A) l v : l <> [] -> each read l = Parsed v -> nonempty v = true.
Proof. intros N H. apply each_length in H. destruct l, v; cbn in *; try congruence; reflexivity. Qed.

Lemma map_nonempty {X Y} (f : X -> Y) l : l <> [] -> map f l <> [].
Proof. destruct l; [congruence|discriminate]. Qed.

Lemma stmt_faulty x : python_stmt x -> stmt_problems x = [] -> faulty_stmt x.
Proof.
  assert (S : forall l, Forall (fun x => python_stmt x -> stmt_problems x = [] -> faulty_stmt x) l -> Forall python_stmt l ->
              flat_map stmt_problems l = [] -> Forall faulty_stmt l).
  { intros l A B C. apply flat_map_nil in C. rewrite Forall_forall in *. auto. }
  induction x as [p e|p l e|p c t f IHt IHf|p c t f IHt IHf|p y a b d IH|p e|p k] using pystmt_induction;
  intros W H; cbn [stmt_problems] in H; unfold faulty_stmt; cbn [stmt_tree stmt_pos stmt_faults].
  - inversion W; subst. rewrite stmt_expr by assumption.
    apply reading_last; [apply (expr_faulty e ltac:(assumption) H 0%nat 0%nat)|]. intros; eexists; reflexivity.
  - destruct l as [|[q x| | | | | | | | | | |] [|]]; try discriminate H. inversion W as [|? ? ? P Wl We| | | | |]; subst.
    apply Forall_inv in Wl. inversion Wl; subst. unfold el at 1. rewrite stmt_assign by assumption.
    cbn [tree expr_pos]. rewrite read_name by assumption. cbn [bind].
    apply reading_last; [apply (expr_faulty e We H 0%nat 0%nat)|]. intros; eexists; reflexivity.
  - inversion W as [| |? ? ? ? P Wc Wt Wf Nt| | | |]; subst.
    apply app_eq_nil in H. destruct H as [C H]. apply app_eq_nil in H. destruct H as [T F].
    unfold el at 1. rewrite stmt_if by assumption.
    apply reading_bind; [apply (expr_faulty c Wc C 0%nat 0%nat)|]. intros u _.
    apply reading_bind; [apply faulty_stmts; auto|]. intros w V.
    rewrite (each_nonempty _ _ _ (map_nonempty _ _ Nt) V). cbn [assert_ bind].
    apply reading_last; [apply faulty_stmts; auto|]. intros; eexists; reflexivity.
  - inversion W as [| | |? ? ? ? P Wc Wt Wf Nt| | |]; subst.
    apply app_eq_nil in H. destruct H as [C H]. apply app_eq_nil in H. destruct H as [T F].
    unfold el at 1. rewrite stmt_while by assumption.
    apply reading_bind; [apply (expr_faulty c Wc C 0%nat 0%nat)|]. intros u _.
    apply reading_bind; [apply faulty_stmts; auto|]. intros w V.
    rewrite (each_nonempty _ _ _ (map_nonempty _ _ Nt) V). cbn [assert_ bind].
    apply reading_last; [apply faulty_stmts; auto|]. intros; eexists; reflexivity.
  - inversion W as [| | | |? ? ? ? ? P Wx Wa Wb Nb| |]; subst.
    apply app_eq_nil in H. destruct H as [A B].
    assert (E : Forall faulty (args a)).
    { apply flat_map_nil in A. rewrite Forall_forall in *. intros e I. apply expr_faulty; auto. }
    unfold el at 1. rewrite stmt_def by assumption.
    apply reading_bind; [apply (faulty_all _ 0%nat 0%nat E)|]. intros u _.
    rewrite <- (app_nil_r (flat_map stmt_faults b)).
    apply reading_bind; [apply faulty_stmts; auto|]. intros w V.
    rewrite (each_nonempty _ _ _ (map_nonempty _ _ Nb) V). eexists. reflexivity.
  - inversion W as [| | | | |? ? P We|]; subst. destruct e as [e|].
    + assert (G : stmt_in p "Return" [tree e] = let* e := read_expression 0 0 (tree e) in Parsed (ReturnVertex p (Some e))).
      { open_statement P. reflexivity. }
      unfold el. rewrite G.
      apply reading_last; [apply (expr_faulty e (We _ eq_refl) H 0%nat 0%nat)|]. intros; eexists; reflexivity.
    + unfold el. open_statement P. eexists. reflexivity.
  - discriminate H.
Qed.

Lemma parse_faulty src body : printable src -> Forall python_stmt body -> flat_map stmt_problems body = [] ->
  match flat_map stmt_faults body with
  | [] => exists m, parse_script src body = Tree m
  | q :: _ => parse_script src body = complaint q
  end.
Proof.
  intros S W H. rewrite (parse_clean src body S W H).
  assert (R : Forall faulty_stmt body).
  { apply flat_map_nil in H. rewrite Forall_forall in *. intros x I. apply stmt_faulty; auto. }
  apply faulty_stmts in R. destruct (flat_map stmt_faults body) as [|q l]; cbn [reading] in R.
  - destruct R as [v ->]. eexists. reflexivity.
  - rewrite R. destruct q; reflexivity.
Qed.

(** ** Text that is taken for XML *)

Definition no_null (t : text) : Prop := Forall (fun c => c <> "000"%char) t.
Lemma name_no_null n : xml_name n = true -> no_null n.
Proof. intros A. eapply Forall_impl; [|apply xml_name_chars, A]. simpl. intros c Hc ->. discriminate Hc. Qed.
Lemma attributes_no_null l : Forall attribute_ok l -> no_null (show_attributes l).
Proof.
  unfold no_null. induction 1 as [|[n v] l [A V] _ IH]; [constructor|]. simpl in A, V.
  unfold show_attributes. cbn [flat_map]. apply Forall_app. split; [|exact IH].
  unfold show_attribute. cbn [fst snd]. constructor; [discriminate|].
  apply Forall_app. split; [apply name_no_null, A|].
  apply Forall_app. split; [repeat constructor; discriminate|].
  apply Forall_app. split; [|repeat constructor; discriminate].
  apply esc_no_null. eapply Forall_impl; [|exact V]. intros c C ->. unfold value_char in C. cbn in C. lia.
Qed.
Lemma good_no_null x : good x -> no_null (show x).
Proof.
  induction x as [t|n a c IH] using xml_induction; intros G; [inversion G|].
  assert (K : no_null n /\ no_null (show_attributes a) /\ no_null (flat_map show c)).
  { inversion G as [n' a' t A L T D|n' a' l' A L F]; subst; repeat split; auto using name_no_null, attributes_no_null.
    - cbn [flat_map]. rewrite app_nil_r. cbn [show]. destruct D as [D _]. eapply Forall_impl; [|exact D].
      intros d (X & _) ->. discriminate X.
    - clear G. induction F as [|x l X _ IHl]; [constructor|]. apply Forall_cons_iff in IH as [I1 I2].
      cbn [flat_map]. apply Forall_app. split; [apply I1, X|apply IHl, I2]. }
  destruct K as (K1 & K2 & K3). unfold no_null in *.
  destruct c as [|y c].
  - cbn [show]. constructor; [discriminate|]. rewrite !Forall_app. repeat split; auto; repeat constructor; discriminate.
  - set (d := y :: c) in *. replace (show (Element n a d)) with ("<"%char :: n ++ show_attributes a ++ [">"%char] ++ flat_map show d ++ lit "</" ++ n ++ [">"%char]) by reflexivity.
    constructor; [discriminate|]. rewrite !Forall_app. repeat split; auto; repeat constructor; discriminate.
Qed.

Definition smuggled (p q : pos) (t : text) : text :=
  lit "a</String></Expression></Statement>" ++ t ++
  ("<"%char :: lit "Statement" ++ show_attributes (places p) ++ [">"%char]) ++
  ("<"%char :: lit "Expression" ++ show_attributes (places q) ++ [">"%char]) ++ lit "<String>b".

Lemma smuggle src p q y : python_stmt y -> stmt_problems y = [] ->
  parse_script src [SExpr p (PStr q (smuggled p q (show (stmt_tree y))))] =
  parse_script src [SExpr p (PStr q (lit "a")); y; SExpr p (PStr q (lit "b"))].
Proof.
  intros W H. unfold parse_script. 
  assert (E : write_script src [SExpr p (PStr q (smuggled p q (show (stmt_tree y))))] =
              write_script src [SExpr p (PStr q (lit "a")); y; SExpr p (PStr q (lit "b"))]); [|rewrite E; reflexivity].
  unfold write_script. do 4 f_equal.
  cbn [write_statement_nodes map concat]. rewrite (stmt_text y W H).
  cbn [write_statement write_expression_node stmt_pos expr_pos]. rewrite !open_at_text.
  assert (N : no_null (smuggled p q (show (stmt_tree y)))).
  { unfold smuggled, no_null. pose proof (attributes_no_null _ (places_ok p)) as A. pose proof (attributes_no_null _ (places_ok q)) as B.
    pose proof (good_no_null _ (stmt_tree_good y W)) as C. unfold no_null in *.
    rewrite !Forall_app. repeat split; auto; try (repeat constructor; discriminate);
    (constructor; [discriminate|]); rewrite !Forall_app; repeat split; auto; repeat constructor; discriminate. }
  assert (S : forall s, no_null s -> s <> [] -> write_string_node s = Text (lit "<String>" ++ s ++ lit "</String>")).
  { intros s Hs Ne. destruct s; [congruence|]. unfold write_string_node, str. rewrite c_string_id by exact Hs. reflexivity. }
  rewrite !S; try (repeat constructor; discriminate); try discriminate; [|exact N].
  unfold str. cbn [and_then]. f_equal. unfold smuggled.
  generalize (show_attributes (places p)) (show_attributes (places q)) (show (stmt_tree y)). intros a b c.
  repeat (cbn [app lit list_ascii_of_string]; rewrite <- ?app_assoc). reflexivity.
Qed.
