(** * Different trees are printed differently *)

From Coq Require Import String Ascii List Bool ZArith SpecFloat Lia.
From Verif Require Import DigitProofs IntsModel FloatModel StringModel DecimalModel ScriptModel ScriptSpec
  ScriptProofs PrintModel PrintSpec PrintProofs.
Import ListNotations.
Open Scope Z_scope.

Lemma span (P : ascii -> Prop) x : forall y r r', Forall P x -> Forall P y ->
  (forall c u, r = c :: u -> ~ P c) -> (forall c u, r' = c :: u -> ~ P c) -> x ++ r = y ++ r' -> x = y /\ r = r'.
Proof.
  induction x as [|a x IH]; intros [|b y] r r' X Y R R' E; cbn [app] in E.
  - auto.
  - apply Forall_cons_iff in Y. destruct (R _ _ E (proj1 Y)).
  - apply Forall_cons_iff in X. destruct (R' _ _ (eq_sym E) (proj1 X)).
  - injection E as -> E. apply Forall_cons_iff in X, Y. destruct (IH y r r') as [-> ->]; tauto.
Qed.

Definition name_char (c : ascii) : Prop := name_letter c \/ digit c.
Lemma identifier_chars x : identifier x -> Forall name_char x.
Proof. intros (c & r & -> & L & F). constructor; [left; exact L|exact F]. Qed.

(** What comes after an expression *)
Definition stop_char (c : ascii) : Prop := List.In c [","; ")"; "]"; ":"; " "; newline]%char.
Definition stop (r : text) : Prop := forall c u, r = c :: u -> stop_char c.
Lemma stop_cons c u : stop_char c -> stop (c :: u).
Proof. intros S d w [= <- _]. exact S. Qed.

Ltac every_stop := intros S; cbv in S; destruct S as [<-|[<-|[<-|[<-|[<-|[<-|[]]]]]]].
Lemma stop_name c : stop_char c -> ~ name_char c.
Proof. unfold name_char, name_letter, digit. every_stop; cbv; intros H; intuition discriminate. Qed.
Lemma stop_after_name r : stop r -> forall c u, r = c :: u -> ~ name_char c.
Proof. intros S c u E. apply stop_name. eapply S, E. Qed.

(** The beginning of an expression tells what it is. *)
Definition within (a b : Z) (c : ascii) : bool := (a <=? code c) && (code c <=? b).
Definition letterb (c : ascii) : bool := within 65 90 c || within 97 122 c || within 95 95 c.
Definition classify (t : text) : nat :=
  match t with
  | [] => 9
  | c :: t' =>
      if letterb c then 0 else if Ascii.eqb c quote then 1 else if within 48 57 c then 2
      else if Ascii.eqb c "(" then 4
      else match t' with d :: _ => if within 48 57 d then 2 else 3 | [] => 3 end
  end.
Definition kind (v : vertex) : nat :=
  match v with
  | NameVertex _ _ | FunctionCallVertex _ _ _ => 0
  | StringVertex _ _ => 1
  | NumberVertex _ _ => 2
  | OperatorVertex _ _ _ [_] => 3
  | _ => 4
  end.

Lemma classify_name c t : name_letter c -> classify (c :: t) = 0%nat.
Proof.
  unfold name_letter. intros L. cbn [classify]. replace (letterb c) with true; [reflexivity|]. symmetry.
  unfold letterb, within. rewrite !orb_true_iff, !andb_true_iff, !Z.leb_le. lia.
Qed.
Lemma within_digit c : digit c -> within 48 57 c = true.
Proof. unfold digit, within. rewrite andb_true_iff, !Z.leb_le. auto. Qed.
Lemma classify_digit c t : digit c -> classify (c :: t) = 2%nat.
Proof.
  intros D. cbn [classify]. rewrite (within_digit c D). unfold digit in D.
  replace (letterb c) with false.
  - destruct (Ascii.eqb_spec c quote); [|reflexivity]. subst c. cbv in D. exfalso. apply (proj1 D). reflexivity.
  - symmetry. unfold letterb, within. rewrite !orb_false_iff, !andb_false_iff, !Z.leb_gt. lia.
Qed.

Lemma digits_first z : 0 <= z -> exists c t, show_int z = c :: t /\ digit c.
Proof.
  intros Z. pose proof (show_digits z Z) as D. pose proof (show_int_nonempty z) as N.
  destruct (show_int z) as [|c t]; [congruence|]. apply Forall_cons_iff in D. eauto. exists c, t. tauto.
Qed.
Lemma classify_pe v r : good v -> classify (pe v ++ r) = kind v.
Proof.
  destruct 1; cbn [pe op_vertex kind fst snd].
  - destruct H as (c & u & -> & L & _). apply classify_name, L.
  - reflexivity.
  - cbn [show_number]. destruct (Z_lt_ge_dec z 0) as [N|N].
    + assert (E : exists y, z = - y /\ 0 < y) by (exists (- z); lia). destruct E as (y & -> & Y).
      rewrite show_negative by exact Y. destruct (digits_first y) as (c & t & -> & D); [lia|].
      cbn [lit list_ascii_of_string app]. cbn [classify]. change (letterb "-"%char) with false.
      change (Ascii.eqb "-" quote) with false. change (within 48 57 "-"%char) with false. change (Ascii.eqb "-" "(") with false.
      cbv iota. rewrite (within_digit c D). reflexivity.
    + destruct (digits_first z) as (c & t & -> & D); [lia|]. apply classify_digit, D.
  - destruct H as (c & u & -> & L & _). apply classify_name, L.
  - destruct op; try reflexivity.
  - reflexivity.
  - reflexivity.
  - reflexivity.
Qed.

Lemma bin_names n s n' : bin n s -> bin n' s -> n = n'.
Proof.
  intros [[op E] | [[op E] | [op E]]] [[op' E'] | [[op' E'] | [op' E']]];
    try (destruct op; cbn in E; injection E as <- <-); try (destruct E);
    try (destruct op'; cbn in E'; injection E' as <-; reflexivity || discriminate);
    try (destruct op'; cbn in E'; (discriminate E' || (injection E' as <-; reflexivity)));
    try (inversion E'; reflexivity).
Qed.
Definition not_space (c : ascii) : Prop := c <> " "%char.
Lemma bin_symbol n s : bin n s -> Forall not_space (lit s).
Proof.
  intros [[op E] | [[op E] | [op E]]]; [destruct op; cbn in E; injection E as <- <-..|destruct E];
    repeat constructor; discriminate.
Qed.

Lemma int_chars z : Forall (fun c => digit c \/ c = "-"%char) (show_int z).
Proof.
  destruct (Z_lt_ge_dec z 0) as [N|N].
  - assert (E : exists y, z = - y /\ 0 < y) by (exists (- z); lia). destruct E as (y & -> & Y).
    rewrite show_negative by exact Y. constructor; [right; reflexivity|].
    eapply Forall_impl; [|apply show_digits; lia]. auto.
  - eapply Forall_impl; [|apply show_digits; lia]. auto.
Qed.
Lemma stop_int r : stop r -> forall c u, r = c :: u -> ~ (digit c \/ c = "-"%char).
Proof.
  intros S c u E [D|D]; apply S in E; [|subst c; cbv in E; intuition discriminate].
  apply stop_name in E. apply E. right. exact D.
Qed.
Lemma show_int_injective z z' : show_int z = show_int z' -> z = z'.
Proof. intros E. apply (f_equal read_integer) in E. rewrite !read_show in E. congruence. Qed.

Lemma quote_free s : plain_string s -> Forall (fun c => c <> quote) s.
Proof. intros F. eapply Forall_impl; [|exact F]. intros c (_ & Q & _). exact Q. Qed.

Lemma pe_first v : good v -> exists c t, pe v = c :: t /\ c <> ")"%char.
Proof.
  assert (D : forall x, identifier x -> forall r, exists c t, x ++ r = c :: t /\ c <> ")"%char).
  { intros x (c & u & -> & L & _) r. exists c, (u ++ r). split; [reflexivity|]. intros ->.
    unfold name_letter in L. cbv in L. intuition discriminate. }
  destruct 1; cbn [pe op_vertex fst snd]; try (eexists; eexists; split; [reflexivity|discriminate]).
  - destruct (D x H []) as (c & t & E & N). rewrite app_nil_r in E. eauto.
  - cbn [show_number]. pose proof (int_chars z) as I. pose proof (show_int_nonempty z) as Z.
    destruct (show_int z) as [|d t]; [congruence|]. exists d, t. split; [reflexivity|].
    apply Forall_cons_iff in I. destruct I as [[I|I] _]; [|subst d; discriminate].
    intros ->. cbv in I. apply (proj1 I). reflexivity.
  - apply D, H.
  - destruct op; (eexists; eexists; split; [reflexivity|discriminate]).
Qed.

(** What is printed for an expression determines it, and where it ends. *)
Lemma pe_unique :
  (forall v, good v -> forall w r r', good w -> stop r -> stop r' -> pe v ++ r = pe w ++ r' -> bare v = bare w /\ r = r') /\
  (forall l, goods l -> forall l' r r', goods l' -> sep pe l ++ ")"%char :: r = sep pe l' ++ ")"%char :: r' ->
     map bare l = map bare l' /\ r = r').
Proof.
  assert (K : forall v w r r', good v -> good w -> pe v ++ r = pe w ++ r' -> kind v = kind w).
  { intros v w r r' V W E. apply (f_equal classify) in E. rewrite !classify_pe in E by assumption. exact E. }
  assert (B : forall c, stop_char c -> stop_char c) by auto.
  assert (S1 : forall u, stop (")"%char :: u)) by (intros; apply stop_cons; right; left; reflexivity).
  assert (S2 : forall u, stop ("]"%char :: u)) by (intros; apply stop_cons; right; right; left; reflexivity).
  assert (S3 : forall u, stop (","%char :: u)) by (intros; apply stop_cons; left; reflexivity).
  assert (N1 : forall r c u, "("%char :: r = c :: u -> ~ name_char c).
  { intros r c u [= <- _]. unfold name_char, name_letter, digit. cbv. intuition discriminate. }
  apply good_mutual.
  - (* a name *)
    intros p x X Y w r r' W R R' E. pose proof (K _ _ _ _ (G_name p x X Y) W E) as Kd.
    destruct W; cbn [kind op_vertex] in Kd; try discriminate Kd; cbn [pe] in E.
    + destruct (span name_char x x0 r r') as [-> ->]; eauto using identifier_chars, stop_after_name.
    + rewrite <- !app_assoc in E. exfalso. destruct (span name_char x x0 r (lit "(" ++ sep pe l ++ lit ")" ++ r')) as [_ ->];
        eauto using identifier_chars, stop_after_name. { intros c u. apply N1. }
      specialize (R _ _ eq_refl). cbv in R. intuition discriminate.
  - (* a string *)
    intros p s P w r r' W R R' E. pose proof (K _ _ _ _ (G_string p s P) W E) as Kd.
    destruct W; cbn [kind op_vertex] in Kd; try discriminate Kd; cbn [pe] in E.
    cbn [app] in E. injection E as E. rewrite <- !app_assoc in E.
    destruct (span (fun c => c <> quote) s s0 ([quote] ++ r) ([quote] ++ r')) as [-> E2]; auto using quote_free.
    1, 2: intros c u [= <- _] HH; apply HH; reflexivity.
    injection E2 as ->. auto.
  - (* a number *)
    intros p z w r r' W R R' E. pose proof (K _ _ _ _ (G_int p z) W E) as Kd.
    destruct W; cbn [kind op_vertex] in Kd; try discriminate Kd; cbn [pe show_number] in E.
    destruct (span (fun c => digit c \/ c = "-"%char) (show_int z) (show_int z0) r r') as [E1 ->]; eauto using int_chars.
    { apply stop_int, R. } { apply stop_int, R'. }
    apply show_int_injective in E1. subst. auto.
  - (* a call *)
    intros p x l X Y L IH w r r' W R R' E. pose proof (K _ _ _ _ (G_call p x l X Y L) W E) as Kd.
    destruct W; cbn [kind op_vertex] in Kd; try discriminate Kd; cbn [pe] in E; rewrite <- !app_assoc in E.
    + exfalso. destruct (span name_char x x0 (lit "(" ++ sep pe l ++ lit ")" ++ r) r') as [_ E1];
        eauto using identifier_chars, stop_after_name. { intros c u. apply N1. }
      specialize (R' _ _ (eq_sym E1)). cbv in R'. intuition discriminate.
    + destruct (span name_char x x0 (lit "(" ++ sep pe l ++ lit ")" ++ r) (lit "(" ++ sep pe l0 ++ lit ")" ++ r')) as [-> E1];
        auto using identifier_chars. { intros c u. apply N1. } { intros c u. apply N1. }
      injection E1 as E1. destruct (IH l0 r r') as [E2 ->]; [assumption|exact E1|]. cbn [bare]. rewrite E2. auto.
  - (* a sign *)
    intros p op v O V IH w r r' W R R' E. pose proof (K _ _ _ _ (G_unary p op v O V) W E) as Kd.
    destruct W; cbn [kind op_vertex] in Kd; try discriminate Kd; cbn [pe op_vertex] in E; rewrite <- !app_assoc in E.
    assert (A : op = op0 /\ pe v ++ lit ")" ++ r = pe v0 ++ lit ")" ++ r').
    { destruct op, op0; try congruence; cbn in E; injection E as E; try discriminate E; auto. }
    destruct A as [-> A]. destruct (IH v0 (lit ")" ++ r) (lit ")" ++ r')) as [E1 E2]; [assumption|apply S1|apply S1|exact A|].
    injection E2 as ->. cbn [bare op_vertex map]. rewrite E1. auto.
  - (* two operands *)
    intros p n s v v' O V IH V' IH' w r r' W R R' E. pose proof (K _ _ _ _ (G_binary p n s v v' O V V') W E) as Kd.
    destruct W; cbn [kind op_vertex] in Kd; try discriminate Kd; cbn [pe op_vertex fst snd] in E; rewrite <- !app_assoc in E.
    + cbn [lit list_ascii_of_string app] in E. injection E as E.
      edestruct (IH v0) as [E1 E2]; [assumption| | |exact E|]; [apply S1..|].
      injection E2 as E2.
      edestruct (span not_space (list_ascii_of_string s) (list_ascii_of_string s0)) as [E3 E4]; [apply (bin_symbol _ _ O)|eapply bin_symbol; eassumption| | |exact E2|].
      1, 2: intros c u [= <- _] H3; apply H3; reflexivity.
      injection E4 as E4. edestruct (IH' w) as [E5 E6]; [assumption| | |exact E4|]; [apply S1..|].
      injection E6 as ->. apply (f_equal string_of_list_ascii) in E3. rewrite !string_of_list_ascii_of_string in E3. subst s0.
      rewrite (bin_names n s n0) by assumption. cbn [bare op_vertex map]. rewrite E1, E5. auto.
    + cbn [lit list_ascii_of_string app] in E. injection E as E.
      edestruct (IH v0) as [E1 E2]; [assumption| | |exact E|]; [apply S1..|]. discriminate E2.
    + cbn [lit list_ascii_of_string app] in E. injection E as E.
      edestruct (IH v0) as [E1 E2]; [assumption| | |exact E|]; [apply S1..|]. discriminate E2.
  - (* a subscript *)
    intros p v v' V IH V' IH' w r r' W R R' E. pose proof (K _ _ _ _ (G_subscript p v v' V V') W E) as Kd.
    destruct W; cbn [kind op_vertex] in Kd; try discriminate Kd; cbn [pe op_vertex fst snd] in E; rewrite <- !app_assoc in E;
      cbn [lit list_ascii_of_string app] in E; injection E as E;
      (edestruct (IH v0) as [E1 E2]; [assumption| | |exact E|]; [apply S1..|]); try discriminate E2.
    injection E2 as E2. edestruct (IH' w) as [E5 E6]; [assumption| | |exact E2|]; [apply S2..|].
    injection E6 as ->. cbn [bare]. rewrite E1, E5. auto.
  - (* an attribute *)
    intros p v x V IH X Y w r r' W R R' E. pose proof (K _ _ _ _ (G_attribute p v x V X Y) W E) as Kd.
    destruct W; cbn [kind op_vertex] in Kd; try discriminate Kd; cbn [pe op_vertex fst snd] in E; rewrite <- !app_assoc in E;
      cbn [lit list_ascii_of_string app] in E; injection E as E;
      (edestruct (IH v0) as [E1 E2]; [assumption| | |exact E|]; [apply S1..|]); try discriminate E2.
    injection E2 as E2. destruct (span name_char x x0 r r') as [-> ->]; eauto using identifier_chars, stop_after_name.
    cbn [bare]. rewrite E1. auto.
  - (* lists *)
    intros [|w l'] r r' L E; [injection E as ->; auto|]. exfalso. inversion L; subst.
    destruct (pe_first w) as (c & t & U & N); [assumption|].
    cbn [sep] in E. destruct l'; rewrite ?U in E; cbn [app] in E; congruence.
  - intros v l V IH L IHl l' r r' L' E. destruct L' as [|w l' W L'].
    + exfalso. destruct (pe_first v V) as (c & t & U & N).
      cbn [sep] in E. destruct l; rewrite ?U in E; cbn [app] in E; congruence.
    + cbn [sep] in E. destruct l as [|v2 l], l' as [|w2 l']; rewrite <- ?app_assoc in E.
      * destruct (IH w _ _ W (S1 _) (S1 _) E) as [E1 E2]. injection E2 as ->. cbn [map]. rewrite E1. auto.
      * destruct (IH w _ _ W (S1 _) (S3 _) E) as [E1 E2]. discriminate E2.
      * destruct (IH w _ _ W (S3 _) (S1 _) E) as [E1 E2]. discriminate E2.
      * destruct (IH w _ _ W (S3 _) (S3 _) E) as [E1 E2]. injection E2 as E2.
        destruct (IHl (w2 :: l') r r' L' E2) as [E3 ->]. cbn [map] in *. rewrite E1, E3. auto.
Qed.

(** ** Statements *)

Definition spaces (n : nat) : text := repeat " "%char n.

(** An expression does not begin with a reserved word. *)
Lemma pe_keyword e kw c u r : good e -> stop r -> identifier kw -> reserved kw -> ~ name_char c ->
  pe e ++ r = kw ++ c :: u -> False.
Proof.
  intros G S I R N E.
  assert (K : kind e = 0%nat).
  { rewrite <- (classify_pe e r G), E. destruct I as (d & t & -> & L & _). apply classify_name, L. }
  assert (A : forall x r', identifier x -> ~ reserved x -> (forall d w, r' = d :: w -> ~ name_char d) -> x ++ r' = kw ++ c :: u -> False).
  { intros x r' X Y Q F. destruct (span name_char x kw r' (c :: u)) as [-> _]; auto using identifier_chars.
    intros d w [= <- _]. exact N. }
  destruct G; cbn [kind op_vertex] in K; try discriminate K; cbn [pe] in E.
  - apply (A x r); auto. apply stop_after_name, S.
  - rewrite <- app_assoc in E. apply (A x ((lit "(" ++ sep pe l ++ lit ")") ++ r)); auto.
    intros d w [= <- _]. unfold name_char, name_letter, digit. cbv. intuition discriminate.
Qed.

Lemma spaces_before i j c d u w : c <> " "%char -> d <> " "%char -> spaces i ++ c :: u = spaces j ++ d :: w -> i = j /\ c :: u = d :: w.
Proof.
  intros C D. revert j. induction i as [|i IH]; intros [|j] E; cbn in E.
  - auto.
  - injection E as -> _. congruence.
  - injection E as <- _. congruence.
  - injection E as E. destruct (IH j E) as [-> ->]. auto.
Qed.

Section Tab.
Variable tab : nat.
Hypothesis tab_positive : (0 < tab)%nat.

(** What comes after a block, and after a statement, of level [k] *)
Definition stop_block (k : nat) (r : text) : Prop :=
  r = [] \/ exists j c u, r = spaces j ++ c :: u /\ c <> " "%char /\ (j < k * tab)%nat.
Definition after (k : nat) (r : text) : Prop :=
  (r = [] \/ exists j c u, r = spaces j ++ c :: u /\ c <> " "%char /\ (j <= k * tab)%nat) /\
  forall u, r <> spaces (k * tab) ++ lit "else:" ++ u.

Lemma stop_after k r : stop_block k r -> after k r.
Proof.
  intros [-> | (j & c & u & -> & C & J)].
  - split; [left; reflexivity|]. intros u E. destruct (spaces (k * tab)); discriminate E.
  - split; [right; exists j, c, u; repeat split; auto; lia|]. intros w E.
    apply spaces_before in E; [lia|exact C|discriminate].
Qed.
Lemma after_stop k r : after k r -> stop_block (S k) r.
Proof.
  intros [[-> | (j & c & u & -> & C & J)] _]; [left; reflexivity|]. right. exists j, c, u. repeat split; auto. cbn [Nat.mul]. lia.
Qed.
Lemma else_stop k u : stop_block (S k) (line_of (k * tab) (lit "else:") ++ u).
Proof.
  right. exists (k * tab)%nat, "e"%char, (lit "lse:" ++ [newline] ++ u). repeat split; [|discriminate|cbn [Nat.mul]; lia].
  unfold line_of. rewrite <- !app_assoc. reflexivity.
Qed.

Lemma pe_not_space e : good e -> exists c t, pe e = c :: t /\ c <> " "%char.
Proof.
  assert (D : forall x, identifier x -> forall r, exists c t, x ++ r = c :: t /\ c <> " "%char).
  { intros x (c & u & -> & L & _) r. exists c, (u ++ r). split; [reflexivity|]. intros ->.
    unfold name_letter in L. cbv in L. intuition discriminate. }
  destruct 1; cbn [pe op_vertex fst snd]; try (eexists; eexists; split; [reflexivity|discriminate]).
  - destruct (D x H []) as (c & t & E & N). rewrite app_nil_r in E. eauto.
  - cbn [show_number]. pose proof (int_chars z) as I. pose proof (show_int_nonempty z) as Z.
    destruct (show_int z) as [|d t]; [congruence|]. exists d, t. split; [reflexivity|].
    apply Forall_cons_iff in I. destruct I as [[I|I] _]; [|subst d; discriminate].
    intros ->. cbv in I. apply (proj1 I). reflexivity.
  - apply D, H.
  - destruct op; (eexists; eexists; split; [reflexivity|discriminate]).
Qed.

Lemma line_stop u : stop (newline :: u).
Proof. apply stop_cons. do 5 right. left. reflexivity. Qed.
Lemma space_stop u : stop (" "%char :: u).
Proof. apply stop_cons. do 4 right. left. reflexivity. Qed.
Lemma colon_stop u : stop (":"%char :: u).
Proof. apply stop_cons. do 3 right. left. reflexivity. Qed.

(** The text of a statement without its indentation *)
Definition tail (k : nat) (s : statement_vertex) : text :=
  match s with
  | ExpressionVertex e => pe e ++ [newline]
  | AssignmentVertex _ t e => pe t ++ lit " = " ++ pe e ++ [newline]
  | IfVertex _ c t f =>
      lit "if " ++ pe c ++ lit ":" ++ [newline] ++ flat_map (ps tab (S k)) t ++
      else_part tab k (flat_map (ps tab (S k)) f) f
  | WhileVertex _ c t f =>
      lit "while " ++ pe c ++ lit ":" ++ [newline] ++ flat_map (ps tab (S k)) t ++
      else_part tab k (flat_map (ps tab (S k)) f) f
  | _ => []
  end.
Lemma ps_tail k s : good_stmt s -> ps tab k s = spaces (k * tab) ++ tail k s.
Proof. destruct 1; cbn [ps tail]; unfold line_of, spaces; rewrite <- ?app_assoc; reflexivity. Qed.

Lemma identifier_lit s c r : lit s = c :: r -> (within 65 90 c || within 97 122 c) = true ->
  forallb (fun d => within 97 122 d) r = true -> identifier (lit s).
Proof.
  intros E C F. exists c, r. repeat split; [exact E| |].
  - unfold within in C. rewrite orb_true_iff, !andb_true_iff, !Z.leb_le in C. unfold name_letter. lia.
  - apply Forall_forall. intros d I. rewrite forallb_forall in F. specialize (F d I). unfold within in F.
    rewrite andb_true_iff, !Z.leb_le in F. unfold name_letter. lia.
Qed.
Lemma keyword_if : identifier (lit "if") /\ reserved (lit "if").
Proof. split; [eapply identifier_lit; reflexivity|]. unfold reserved. cbn. tauto. Qed.
Lemma keyword_while : identifier (lit "while") /\ reserved (lit "while").
Proof. split; [eapply identifier_lit; reflexivity|]. unfold reserved. cbn. tauto. Qed.
Lemma keyword_else : identifier (lit "else") /\ reserved (lit "else").
Proof. split; [eapply identifier_lit; reflexivity|]. unfold reserved. cbn. tauto. Qed.
Lemma space_char : ~ name_char " "%char.
Proof. unfold name_char, name_letter, digit. cbv. intuition discriminate. Qed.
Lemma colon_char : ~ name_char ":"%char.
Proof. unfold name_char, name_letter, digit. cbv. intuition discriminate. Qed.

Lemma tail_first k s : good_stmt s -> exists c t, tail k s = c :: t /\ c <> " "%char.
Proof.
  destruct 1; cbn [tail]; try (eexists; eexists; split; [reflexivity|discriminate]).
  - destruct (pe_not_space e H) as (c & t & -> & N). exists c, (t ++ [newline]). auto.
  - destruct (pe_not_space (NameVertex q x) (G_name q x H H0)) as (c & t & -> & N). eexists. eexists. split; [reflexivity|exact N].
Qed.

Lemma ps_after k s r : good_stmt s -> after k (ps tab k s ++ r).
Proof.
  intros G. rewrite (ps_tail k s G), <- app_assoc. destruct (tail_first k s G) as (c & t & T & C). split.
  - right. exists (k * tab)%nat, c, (t ++ r). rewrite T. repeat split; auto.
  - intros u E. apply app_inv_head in E.
    destruct keyword_else as [KI KR].
    destruct G as [e G|p q x e X Y G|p d b f G N Gt Gf|p d b f G N Gt Gf]; cbn [tail] in E; rewrite <- ?app_assoc in E.
    + apply (pe_keyword e (lit "else") ":"%char u ([newline] ++ r)); auto; [apply line_stop|apply colon_char].
    + eapply (pe_keyword (NameVertex q x) (lit "else") ":"%char u); [constructor; assumption| |exact KI|exact KR|apply colon_char|exact E]. apply space_stop.
    + discriminate E.
    + discriminate E.
Qed.

Lemma flat_after k l r : good_stmts l -> after k r -> after k (flat_map (ps tab k) l ++ r).
Proof.
  intros G A. destruct G as [|s l G Gl]; [exact A|]. cbn [flat_map]. rewrite <- app_assoc. apply ps_after, G.
Qed.

Lemma else_after k f r : after k r -> stop_block (S k) (else_part tab k (flat_map (ps tab (S k)) f) f ++ r).
Proof.
  intros A. destruct f; cbn [else_part].
  - apply after_stop, A.
  - rewrite <- app_assoc. apply else_stop.
Qed.

Lemma ps_unique :
  (forall s, good_stmt s -> forall k s' r r', good_stmt s' -> after k r -> after k r' ->
     ps tab k s ++ r = ps tab k s' ++ r' -> bare_stmt s = bare_stmt s' /\ r = r') /\
  (forall l, good_stmts l -> forall k l' r r', good_stmts l' -> stop_block k r -> stop_block k r' ->
     flat_map (ps tab k) l ++ r = flat_map (ps tab k) l' ++ r' -> map bare_stmt l = map bare_stmt l' /\ r = r').
Proof.
  destruct pe_unique as [P _].
  destruct keyword_if as [I1 I2]. destruct keyword_while as [W1 W2].
  assert (B : forall k c t f c' t' f' r r',
    (forall l' r r', good_stmts l' -> stop_block (S k) r -> stop_block (S k) r' ->
      flat_map (ps tab (S k)) t ++ r = flat_map (ps tab (S k)) l' ++ r' -> map bare_stmt t = map bare_stmt l' /\ r = r') ->
    (forall l' r r', good_stmts l' -> stop_block (S k) r -> stop_block (S k) r' ->
      flat_map (ps tab (S k)) f ++ r = flat_map (ps tab (S k)) l' ++ r' -> map bare_stmt f = map bare_stmt l' /\ r = r') ->
    good c -> good c' -> good_stmts t' -> good_stmts f' -> after k r -> after k r' ->
    pe c ++ lit ":" ++ [newline] ++ flat_map (ps tab (S k)) t ++ else_part tab k (flat_map (ps tab (S k)) f) f ++ r =
    pe c' ++ lit ":" ++ [newline] ++ flat_map (ps tab (S k)) t' ++ else_part tab k (flat_map (ps tab (S k)) f') f' ++ r' ->
    bare c = bare c' /\ map bare_stmt t = map bare_stmt t' /\ map bare_stmt f = map bare_stmt f' /\ r = r').
  { intros k c t f c' t' f' r r' T F C C' T' F' R R' E.
    destruct (P c C c' _ _ C' (colon_stop _) (colon_stop _) E) as [E1 E2]. injection E2 as E2.
    destruct (T t' _ _ T' (else_after k f r R) (else_after k f' r' R') E2) as [E3 E4].
    split; [exact E1|]. split; [exact E3|].
    destruct f as [|x f], f' as [|x' f']; cbn [else_part] in E4.
    - auto.
    - exfalso. rewrite <- app_assoc in E4. unfold line_of in E4. rewrite <- !app_assoc in E4. eapply (proj2 R). exact E4.
    - exfalso. rewrite <- app_assoc in E4. unfold line_of in E4. rewrite <- !app_assoc in E4. eapply (proj2 R'). symmetry. exact E4.
    - rewrite <- !app_assoc in E4. apply app_inv_head in E4.
      apply F; auto using after_stop. }
  apply good_stmt_mutual.
  - intros e G k s' r r' G' R R' E. rewrite (ps_tail k _ (G_expr e G)), (ps_tail k s' G'), <- !app_assoc in E. apply app_inv_head in E.
    destruct G' as [e' G'|p' q' x' e' X' Y' G'|p' c' t' f' G' N' T' F'|p' c' t' f' G' N' T' F']; cbn [tail] in E; rewrite <- ?app_assoc in E.
    + destruct (P e G e' _ _ G' (line_stop _) (line_stop _) E) as [E1 E2]. injection E2 as ->. cbn [bare_stmt]. rewrite E1. auto.
    + destruct (P e G (NameVertex q' x') _ _ (G_name q' x' X' Y') (line_stop _) (space_stop _) E) as [E1 E2]. discriminate E2.
    + exfalso. eapply (pe_keyword e (lit "if") " "%char); [exact G|apply line_stop|exact I1|exact I2|apply space_char|exact E].
    + exfalso. eapply (pe_keyword e (lit "while") " "%char); [exact G|apply line_stop|exact W1|exact W2|apply space_char|exact E].
  - intros p q x e X Y G k s' r r' G' R R' E. rewrite (ps_tail k _ (G_assign p q x e X Y G)), (ps_tail k s' G'), <- !app_assoc in E. apply app_inv_head in E.
    pose proof (G_name q x X Y) as Gx.
    destruct G' as [e' G'|p' q' x' e' X' Y' G'|p' c' t' f' G' N' T' F'|p' c' t' f' G' N' T' F']; cbn [tail] in E; rewrite <- ?app_assoc in E.
    + destruct (P (NameVertex q x) Gx e' _ _ G' (space_stop _) (line_stop _) E) as [E1 E2]. discriminate E2.
    + destruct (P (NameVertex q x) Gx (NameVertex q' x') _ _ (G_name q' x' X' Y') (space_stop _) (space_stop _) E) as [E1 E2].
      cbn [lit list_ascii_of_string app] in E2. injection E2 as E2.
      destruct (P e G e' _ _ G' (line_stop _) (line_stop _) E2) as [E3 E4]. injection E4 as ->. cbn [bare_stmt]. rewrite E3, E1. auto.
    + exfalso. eapply (pe_keyword (NameVertex q x) (lit "if") " "%char); [exact Gx|apply space_stop|exact I1|exact I2|apply space_char|exact E].
    + exfalso. eapply (pe_keyword (NameVertex q x) (lit "while") " "%char); [exact Gx|apply space_stop|exact W1|exact W2|apply space_char|exact E].
  - intros p c t f G N Gt IHt Gf IHf k s' r r' G' R R' E. rewrite (ps_tail k _ (G_if p c t f G N Gt Gf)), (ps_tail k s' G'), <- !app_assoc in E. apply app_inv_head in E.
    destruct G' as [e' G'|p' q' x' e' X' Y' G'|p' c' t' f' G' N' T' F'|p' c' t' f' G' N' T' F']; cbn [tail] in E; rewrite <- ?app_assoc in E.
    + exfalso. symmetry in E. eapply (pe_keyword e' (lit "if") " "%char); [exact G'|apply line_stop|exact I1|exact I2|apply space_char|exact E].
    + exfalso. symmetry in E. eapply (pe_keyword (NameVertex q' x') (lit "if") " "%char); [constructor; assumption|apply space_stop|exact I1|exact I2|apply space_char|exact E].
    + apply app_inv_head in E. destruct (B k c t f c' t' f' r r' (IHt (S k)) (IHf (S k))) as (E1 & E2 & E3 & ->); auto. cbn [bare_stmt]. rewrite E1, E2, E3. auto.
    + discriminate E.
  - intros p c t f G N Gt IHt Gf IHf k s' r r' G' R R' E. rewrite (ps_tail k _ (G_while p c t f G N Gt Gf)), (ps_tail k s' G'), <- !app_assoc in E. apply app_inv_head in E.
    destruct G' as [e' G'|p' q' x' e' X' Y' G'|p' c' t' f' G' N' T' F'|p' c' t' f' G' N' T' F']; cbn [tail] in E; rewrite <- ?app_assoc in E.
    + exfalso. symmetry in E. eapply (pe_keyword e' (lit "while") " "%char); [exact G'|apply line_stop|exact W1|exact W2|apply space_char|exact E].
    + exfalso. symmetry in E. eapply (pe_keyword (NameVertex q' x') (lit "while") " "%char); [constructor; assumption|apply space_stop|exact W1|exact W2|apply space_char|exact E].
    + discriminate E.
    + apply app_inv_head in E. destruct (B k c t f c' t' f' r r' (IHt (S k)) (IHf (S k))) as (E1 & E2 & E3 & ->); auto. cbn [bare_stmt]. rewrite E1, E2, E3. auto.
  - intros k l' r r' L' R R' E. destruct L' as [|s l G L]; [auto|]. exfalso. cbn [flat_map app] in E. rewrite <- app_assoc in E.
    rewrite (ps_tail k s G), <- app_assoc in E. destruct (tail_first k s G) as (c & t & T & C). rewrite T in E.
    destruct R as [-> | (j & d & u & -> & D & J)].
    + destruct (spaces (k * tab)); discriminate E.
    + cbn [app] in E. apply spaces_before in E; [lia|assumption..].
  - intros s l G IH Gl IHl k l' r r' L' R R' E. destruct L' as [|s' l' G' L'].
    + exfalso. cbn [flat_map app] in E. rewrite <- app_assoc in E. symmetry in E.
      rewrite (ps_tail k s G), <- app_assoc in E. destruct (tail_first k s G) as (c & t & T & C). rewrite T in E.
      destruct R' as [-> | (j & d & u & -> & D & J)].
      * destruct (spaces (k * tab)); discriminate E.
      * cbn [app] in E. apply spaces_before in E; [lia|assumption..].
    + cbn [flat_map] in E. rewrite <- !app_assoc in E.
      destruct (IH k s' _ _ G' (flat_after k l r Gl (stop_after k r R)) (flat_after k l' r' L' (stop_after k r' R')) E) as [E1 E2].
      destruct (IHl k l' r r' L' R R' E2) as [E3 ->]. cbn [map]. rewrite E1, E3. auto.
Qed.

End Tab.
