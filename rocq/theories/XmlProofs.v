(** * Documents that are written are read back *)

From Coq Require Import String Ascii List Bool Arith Lia ZArith.
From Verif Require Import StringModel XmlModel.
Import ListNotations.

(** ** A writer of documents, to compare with *)

Definition esc_char (c : ascii) : text :=
  if Ascii.eqb c "&"%char then lit "&amp;"
  else if Ascii.eqb c "<"%char then lit "&lt;"
  else if Ascii.eqb c ">"%char then lit "&gt;"
  else if Ascii.eqb c """"%char then lit "&quot;"
  else if Ascii.eqb c "'"%char then lit "&apos;"
  else [c].
Definition esc (t : text) : text := flat_map esc_char t.

Definition show_attribute (a : text * text) : text :=
  " "%char :: fst a ++ lit "=""" ++ esc (snd a) ++ [""""%char].
Definition show_attributes (l : list (text * text)) : text := flat_map show_attribute l.
Fixpoint show (x : xml) : text :=
  match x with
  | Chars t => t
  | Element n a [] => "<"%char :: n ++ show_attributes a ++ lit "/>"
  | Element n a l =>
      "<"%char :: n ++ show_attributes a ++ [">"%char] ++ flat_map show l ++ lit "</" ++ n ++ [">"%char]
  end.

Definition code_of := nat_of_ascii.
Definition data_char (c : ascii) : Prop :=
  xml_char c = true /\ c <> "<"%char /\ c <> "&"%char /\ c <> "013"%char.
Definition data_text (t : text) : Prop :=
  Forall data_char t /\ forall a b, t <> a ++ lit "]]>" ++ b.
Definition value_char (c : ascii) : Prop := 32 <= nat_of_ascii c.
Definition attribute_ok (a : text * text) : Prop :=
  xml_name (fst a) = true /\ Forall value_char (snd a).
Inductive good : xml -> Prop :=
| G_text n a t : xml_name n = true -> Forall attribute_ok a -> t <> [] -> data_text t ->
    good (Element n a [Chars t])
| G_elements n a l : xml_name n = true -> Forall attribute_ok a -> Forall good l ->
    good (Element n a l).

Section XmlInd.
Variable P : xml -> Prop.
Hypothesis HC : forall t, P (Chars t).
Hypothesis HE : forall n a l, Forall P l -> P (Element n a l).
Fixpoint xml_induction (x : xml) : P x :=
  match x with
  | Chars t => HC t
  | Element n a l =>
      HE n a l ((fix go l : Forall P l :=
        match l with [] => Forall_nil P | y :: l' => Forall_cons y (xml_induction y) (go l') end) l)
  end.
End XmlInd.

Lemma text_eqb_refl t : text_eqb t t = true.
Proof. unfold text_eqb. destruct (list_eq_dec ascii_dec t t); congruence. Qed.

Lemma xml_name_chars n : xml_name n = true -> Forall (fun c => name_char c = true) n.
Proof.
  destruct n as [|c n]; [discriminate|]. simpl. rewrite andb_true_iff. intros [A B].
  constructor; [unfold name_char; rewrite A; reflexivity|].
  apply Forall_forall. intros d D. rewrite forallb_forall in B. auto.
Qed.

Lemma xml_name_cons n : xml_name n = true -> exists c r, n = c :: r /\ letter c = true.
Proof. destruct n as [|c r]; [discriminate|]. simpl. rewrite andb_true_iff. intros [A _]. eauto. Qed.

Lemma eqb_no c d : c <> d -> Ascii.eqb c d = false.
Proof. apply Ascii.eqb_neq. Qed.

(** ** Tags *)

Lemma scan_plain t : Forall (fun c => c <> "<"%char /\ c <> ">"%char /\ c <> """"%char /\ c <> "'"%char) t ->
  forall b s, tokens_of (InTag b None) (t ++ s) = tokens_of (InTag (rev t ++ b) None) s.
Proof.
  induction 1 as [|c t (A & B & C & D) _ IH]; intros b s; [reflexivity|].
  cbn [app tokens_of rev]. rewrite (eqb_no _ _ A), (eqb_no _ _ B), (eqb_no _ _ C), (eqb_no _ _ D). cbn [orb].
  rewrite IH, <- app_assoc. reflexivity.
Qed.

Lemma scan_quoted t : Forall (fun c => c <> "<"%char /\ c <> """"%char) t ->
  forall b s, tokens_of (InTag b (Some """"%char)) (t ++ s) = tokens_of (InTag (rev t ++ b) (Some """"%char)) s.
Proof.
  induction 1 as [|c t (A & B) _ IH]; intros b s; [reflexivity|].
  cbn [app tokens_of rev]. rewrite (eqb_no _ _ A), (eqb_no _ _ B).
  rewrite IH, <- app_assoc. reflexivity.
Qed.

Lemma name_scan n : Forall (fun c => name_char c = true) n ->
  Forall (fun c => c <> "<"%char /\ c <> ">"%char /\ c <> """"%char /\ c <> "'"%char) n.
Proof.
  intros H. eapply Forall_impl; [|exact H]. simpl. intros c Hc.
  repeat split; intros ->; discriminate Hc.
Qed.

Lemma esc_char_quoted c : Forall (fun c => c <> "<"%char /\ c <> """"%char) (esc_char c).
Proof.
  unfold esc_char.
  destruct (Ascii.eqb_spec c "&"%char); [repeat constructor; discriminate|].
  destruct (Ascii.eqb_spec c "<"%char); [repeat constructor; discriminate|].
  destruct (Ascii.eqb_spec c ">"%char); [repeat constructor; discriminate|].
  destruct (Ascii.eqb_spec c """"%char); [repeat constructor; discriminate|].
  destruct (Ascii.eqb_spec c "'"%char); [repeat constructor; discriminate|].
  repeat constructor; auto.
Qed.
Lemma esc_quoted t : Forall (fun c => c <> "<"%char /\ c <> """"%char) (esc t).
Proof. induction t; simpl; [constructor|]. apply Forall_app. split; auto using esc_char_quoted. Qed.

Lemma rev_cons_app {A} (x : A) l r : rev (x :: l) ++ r = rev l ++ x :: r.
Proof. simpl. rewrite <- app_assoc. reflexivity. Qed.

Lemma scan_attributes l : Forall attribute_ok l ->
  forall b s, tokens_of (InTag b None) (show_attributes l ++ s) =
    tokens_of (InTag (rev (show_attributes l) ++ b) None) s.
Proof.
  induction 1 as [|[n v] l [A _] _ IH]; intros b s; [reflexivity|]. simpl in A.
  unfold show_attributes. cbn [flat_map]. fold (show_attributes l).
  unfold show_attribute. cbn [fst snd]. rewrite <- app_assoc, rev_app_distr.
  cbn [app tokens_of]. change (Ascii.eqb " " ">") with false. change (Ascii.eqb " " "<") with false.
  cbn [orb Ascii.eqb Bool.eqb].
  rewrite <- !app_assoc. rewrite scan_plain by auto using name_scan, xml_name_chars.
  change (lit "=""") with ["="%char; """"%char]. cbn [app].
  cbn [tokens_of]. cbn [orb Ascii.eqb Bool.eqb].
  rewrite scan_quoted by apply esc_quoted. cbn [tokens_of]. cbn [orb Ascii.eqb Bool.eqb].
  rewrite IH. f_equal. f_equal.
  rewrite rev_cons_app. rewrite !rev_app_distr. cbn [rev app]. rewrite !rev_app_distr. cbn [rev app]. rewrite <- !app_assoc. cbn [app]. reflexivity.
Qed.

Lemma tag_name_of n r : Forall (fun c => name_char c = true) n ->
  match r with [] => True | c :: _ => name_char c = false end -> tag_name (n ++ r) = (n, r).
Proof.
  intros H R. induction H as [|c n A _ IH].
  - destruct r; [reflexivity|]. simpl. rewrite R. reflexivity.
  - simpl. rewrite A, IH. reflexivity.
Qed.

Lemma value_chars t : Forall value_char t -> forall n q v s, q = """"%char ->
  attributes (InValue n q v) (esc t ++ s) = attributes (InValue n q (rev t ++ v)) s.
Proof.
  induction 1 as [|c t A _ IH]; intros n q v s ->; [reflexivity|].
  unfold esc. cbn [flat_map]. fold (esc t). rewrite <- app_assoc, rev_cons_app, <- (IH n _ (c :: v) s eq_refl).
  unfold esc_char.
  destruct (Ascii.eqb_spec c "&"%char); [subst; reflexivity|].
  destruct (Ascii.eqb_spec c "<"%char); [subst; reflexivity|].
  destruct (Ascii.eqb_spec c ">"%char); [subst; reflexivity|].
  destruct (Ascii.eqb_spec c """"%char); [subst; reflexivity|].
  destruct (Ascii.eqb_spec c "'"%char); [subst; reflexivity|].
  cbn [app attributes]. rewrite !eqb_no by auto. cbn [orb].
  unfold value_char in A. assert (X : xml_char c = true).
  { unfold xml_char. rewrite (proj2 (Nat.leb_le _ _) A). apply orb_true_r. }
  rewrite X. cbn [negb]. destruct (white c) eqn:W; [|reflexivity].
  assert (c = " "%char) as ->; [|reflexivity].
  unfold white in W. rewrite !orb_true_iff, !Nat.eqb_eq in W.
  rewrite <- (ascii_nat_embedding c). destruct W as [[[W|W]|W]|W]; rewrite W in *; try lia. reflexivity.
Qed.

Lemma attributes_of l : Forall attribute_ok l ->
  forall b, attributes (Gap b) (show_attributes l) = Some l.
Proof.
  induction 1 as [|[n v] l [A V] _ IH]; intros b; [reflexivity|]. simpl in A, V.
  unfold show_attributes. cbn [flat_map]. fold (show_attributes l). unfold show_attribute. cbn [fst snd].
  pose proof (xml_name_chars _ A) as N. destruct (xml_name_cons _ A) as (c & r & -> & L).
  cbn [app attributes]. change (white " ") with true. cbn iota.
  assert (W : white c = false).
  { destruct (white c) eqn:W; auto. unfold white in W. rewrite !orb_true_iff, !Nat.eqb_eq in W.
    destruct W as [[[W|W]|W]|W]; apply (f_equal ascii_of_nat) in W; rewrite ascii_nat_embedding in W; subst c; discriminate L. }
  rewrite W, L. cbn [andb]. inversion N as [|? ? _ N']; subst.
  assert (G : forall r, Forall (fun c => name_char c = true) r -> forall m s,
    attributes (InName m) (r ++ s) = attributes (InName (rev r ++ m)) s).
  { clear. induction 1 as [|c r A _ IH]; intros m s; [reflexivity|]. cbn [app attributes]. rewrite A, IH, rev_cons_app. reflexivity. }
  rewrite <- !app_assoc, G by auto. change (lit "=""") with ["="%char; """"%char]. cbn [app attributes].
  change (name_char "=") with false. cbn [Ascii.eqb Bool.eqb orb].
  rewrite value_chars by auto. cbn [attributes]. cbn [Ascii.eqb Bool.eqb]. rewrite IH.
  rewrite !app_nil_r, rev_app_distr, !rev_involutive. reflexivity.
Qed.

Lemma attributes_start l : match show_attributes l with [] => True | c :: _ => name_char c = false end.
Proof. destruct l as [|[n v] l]; [exact I|reflexivity]. Qed.

Lemma opening_of n l : xml_name n = true -> Forall attribute_ok l ->
  opening (n ++ show_attributes l) = Some (n, l).
Proof.
  intros A L. unfold opening. rewrite tag_name_of; [|apply xml_name_chars, A|apply attributes_start].
  rewrite A, attributes_of by auto. reflexivity.
Qed.

Lemma not_closing n r : xml_name n = true -> starts_with (n ++ r) (lit "/") = false.
Proof.
  intros A. destruct (xml_name_cons _ A) as (c & s & -> & L). change (lit "/") with ["/"%char].
  cbn [app starts_with]. destruct (Ascii.eqb_spec "/"%char c); [subst; discriminate|reflexivity].
Qed.

Lemma last_char n l : xml_name n = true -> Forall attribute_ok l ->
  exists s c, n ++ show_attributes l = s ++ [c] /\ c <> "/"%char.
Proof.
  intros A L. destruct l as [|a l] using rev_ind.
  - pose proof (xml_name_chars _ A) as N. destruct (xml_name_cons _ A) as (c0 & r0 & E & _).
    destruct (@exists_last _ n) as (s & c & ->); [rewrite E; discriminate|].
    exists s, c. rewrite app_nil_r. split; auto. apply Forall_app in N. destruct N as [_ N].
    inversion N as [|? ? H]; subst. intros ->. discriminate H.
  - unfold show_attributes. rewrite flat_map_app. cbn [flat_map]. rewrite app_nil_r. unfold show_attribute at 2.
    exists (n ++ flat_map show_attribute l ++ " "%char :: fst a ++ lit "=""" ++ esc (snd a)), """"%char.
    split; [|discriminate]. rewrite <- !app_assoc. cbn [app]. rewrite <- !app_assoc. reflexivity.
Qed.

Lemma tag_open n l : xml_name n = true -> Forall attribute_ok l ->
  tag (n ++ show_attributes l) = Some (Open n l).
Proof.
  intros A L. unfold tag. rewrite not_closing by auto.
  assert (E : ends_with (n ++ show_attributes l) (lit "/") = false).
  { destruct (last_char n l A L) as (s & c & -> & N). unfold ends_with. rewrite rev_app_distr. cbn [rev app lit list_ascii_of_string starts_with].
    rewrite eqb_no by auto. reflexivity. }
  rewrite E, opening_of by auto. reflexivity.
Qed.

Lemma tag_empty n l : xml_name n = true -> Forall attribute_ok l ->
  tag (n ++ show_attributes l ++ ["/"%char]) = Some (Empty n l).
Proof.
  intros A L. unfold tag. rewrite not_closing by auto. rewrite app_assoc.
  unfold ends_with. rewrite rev_app_distr. cbn [rev app lit list_ascii_of_string starts_with Ascii.eqb Bool.eqb andb].
  assert (E : forall t, starts_with t [] = true) by (intros []; reflexivity).
  rewrite E, removelast_last, opening_of by auto. reflexivity.
Qed.

Lemma tag_close n : xml_name n = true -> tag ("/"%char :: n) = Some (Close n).
Proof.
  intros A. unfold tag. cbn [lit list_ascii_of_string starts_with Ascii.eqb Bool.eqb andb tl].
  assert (E : forall t, starts_with t [] = true) by (intros []; reflexivity). rewrite E.
  rewrite <- (app_nil_r n) at 1. rewrite tag_name_of; [|apply xml_name_chars, A|exact I]. rewrite A. reflexivity.
Qed.

(** ** Tokens *)

Fixpoint toks (x : xml) : list token :=
  match x with
  | Chars t => [Data t]
  | Element n a [] => [Empty n a]
  | Element n a l => Open n a :: flat_map toks l ++ [Close n]
  end.

Definition prepend (l : list token) (r : option (list token)) : option (list token) :=
  match r with Some r => Some (l ++ r) | None => None end.
Lemma prepend_app l m r : prepend (l ++ m) r = prepend l (prepend m r).
Proof. destruct r; simpl; auto. rewrite app_assoc. reflexivity. Qed.

Lemma lex_open n l s : xml_name n = true -> Forall attribute_ok l ->
  tokens_of (InData []) ("<"%char :: n ++ show_attributes l ++ ">"%char :: s) =
  prepend [Open n l] (tokens_of (InData []) s).
Proof.
  intros A L. cbn [tokens_of Ascii.eqb Bool.eqb]. 
  rewrite scan_plain by auto using name_scan, xml_name_chars. rewrite scan_attributes by auto.
  cbn [app tokens_of Ascii.eqb Bool.eqb]. rewrite app_nil_r, <- rev_app_distr, rev_involutive, tag_open by auto.
  destruct (tokens_of (InData []) s); reflexivity.
Qed.

Lemma lex_empty n l s : xml_name n = true -> Forall attribute_ok l ->
  tokens_of (InData []) ("<"%char :: n ++ show_attributes l ++ lit "/>" ++ s) =
  prepend [Empty n l] (tokens_of (InData []) s).
Proof.
  intros A L. cbn [tokens_of Ascii.eqb Bool.eqb].
  rewrite scan_plain by auto using name_scan, xml_name_chars. rewrite scan_attributes by auto.
  change (lit "/>") with ["/"%char; ">"%char]. cbn [app tokens_of Ascii.eqb Bool.eqb orb].
  rewrite app_nil_r, <- rev_app_distr. cbn [rev]. rewrite rev_involutive, <- app_assoc, tag_empty by auto.
  destruct (tokens_of (InData []) s); reflexivity.
Qed.

Lemma lex_close n s a : xml_name n = true ->
  tokens_of (InData a) (lit "</" ++ n ++ ">"%char :: s) =
  flush a (prepend [Close n] (tokens_of (InData []) s)).
Proof.
  intros A. change (lit "</") with ["<"%char; "/"%char]. cbn [app tokens_of Ascii.eqb Bool.eqb orb].
  rewrite scan_plain by auto using name_scan, xml_name_chars.
  cbn [app tokens_of Ascii.eqb Bool.eqb]. rewrite rev_app_distr. cbn [rev app]. rewrite rev_involutive, tag_close by auto.
  destruct (tokens_of (InData []) s); reflexivity.
Qed.

Lemma starts_with_rev a : starts_with a (lit "]]") = true -> exists b, rev a = b ++ lit "]]".
Proof.
  change (lit "]]") with ["]"%char; "]"%char]. destruct a as [|c [|d a]]; try (simpl; rewrite ?andb_false_r; discriminate).
  cbn [starts_with]. rewrite !andb_true_iff, !Ascii.eqb_eq. intros (<- & <- & _).
  exists (rev a). simpl. rewrite <- app_assoc. reflexivity.
Qed.

Lemma lex_data t : Forall data_char t -> forall a s,
  (forall b c, rev a ++ t <> b ++ lit "]]>" ++ c) ->
  tokens_of (InData a) (t ++ s) = tokens_of (InData (rev t ++ a)) s.
Proof.
  induction 1 as [|c t (X & A & B & _) _ IH]; intros a s N; [reflexivity|].
  cbn [app tokens_of]. rewrite (eqb_no _ _ A), (eqb_no _ _ B), X.
  assert (G : Ascii.eqb c ">"%char && starts_with a (lit "]]") = false).
  { destruct (Ascii.eqb_spec c ">"%char) as [->|]; [|reflexivity]. cbn [andb].
    destruct (starts_with a (lit "]]")) eqn:S; [|reflexivity]. destruct (starts_with_rev _ S) as [b E].
    exfalso. apply (N b t). rewrite E, <- app_assoc. reflexivity. }
  rewrite G, IH; [rewrite rev_cons_app; reflexivity|].
  intros b d E. apply (N b d). rewrite <- E. simpl. rewrite <- app_assoc. reflexivity.
Qed.

Lemma lex_good x : good x -> forall s,
  tokens_of (InData []) (show x ++ s) = prepend (toks x) (tokens_of (InData []) s).
Proof.
  induction x as [t|n a l IH] using xml_induction; intros G s; [inversion G|].
  inversion G as [n' a' t A L T D|n' a' l' A L F]; subst.
  - cbn [show toks flat_map]. rewrite app_nil_r. cbn [app]. repeat (rewrite <- app_assoc; cbn [app]).
    rewrite lex_open by auto. destruct D as [D1 D2].
    rewrite lex_data by auto. rewrite app_nil_r, lex_close by auto.
    destruct (tokens_of (InData []) s); [|reflexivity]. cbn [prepend flush].
    rewrite <- (rev_involutive t) in T. destruct (rev t) eqn:E; [exfalso; apply T; reflexivity|].
    rewrite <- E, rev_involutive. reflexivity.
  - assert (K : forall l s, Forall good l -> Forall (fun x => good x -> forall s, tokens_of (InData []) (show x ++ s) = prepend (toks x) (tokens_of (InData []) s)) l ->
      tokens_of (InData []) (flat_map show l ++ s) = prepend (flat_map toks l) (tokens_of (InData []) s)).
    { clear. induction l as [|x l IHl]; intros s F IH; [simpl; destruct (tokens_of _ s); reflexivity|].
      apply Forall_cons_iff in F as [F1 F2]; apply Forall_cons_iff in IH as [I1 I2]. cbn [flat_map]. rewrite <- app_assoc. rewrite I1, IHl, prepend_app by auto. reflexivity. }
    destruct l as [|y l].
    + cbn [show toks app]. rewrite <- !app_assoc, lex_empty by auto. reflexivity.
    + set (m := y :: l) in *.
      replace (show (Element n a m)) with ("<"%char :: n ++ show_attributes a ++ [">"%char] ++ flat_map show m ++ lit "</" ++ n ++ [">"%char]) by reflexivity.
      replace (toks (Element n a m)) with (Open n a :: flat_map toks m ++ [Close n]) by reflexivity.
      repeat (cbn [app]; rewrite <- app_assoc). cbn [app].
      rewrite lex_open, K, lex_close by auto.
      destruct (tokens_of (InData []) s); [|reflexivity]. cbn. rewrite <- !app_assoc. reflexivity.
Qed.

(** ** Elements *)

Lemma build_good x : good x \/ (exists t, x = Chars t) -> forall n a l open root r,
  build ((n, a, l) :: open) root (toks x ++ r) = build ((n, a, x :: l) :: open) root r.
Proof.
  induction x as [t|m b c IH] using xml_induction; intros G n a l open root r; [reflexivity|].
  assert (K : Forall (fun x => good x \/ exists t, x = Chars t) c).
  { destruct G as [G|[t E]]; [|discriminate]. inversion G; subst.
    - constructor; [right; eauto|constructor].
    - eapply Forall_impl; [|eassumption]. auto. }
  clear G.
  assert (J : forall c, Forall (fun x => good x \/ exists t, x = Chars t) c ->
    Forall (fun x => good x \/ (exists t, x = Chars t) -> forall n a l open root r,
      build ((n, a, l) :: open) root (toks x ++ r) = build ((n, a, x :: l) :: open) root r) c ->
    forall n a l open root r, build ((n, a, l) :: open) root (flat_map toks c ++ r) = build ((n, a, rev c ++ l) :: open) root r).
  { clear. induction c as [|x c IHc]; intros F IH n a l open root r; [reflexivity|].
    apply Forall_cons_iff in F as [F1 F2]; apply Forall_cons_iff in IH as [I1 I2]. cbn [flat_map]. rewrite <- app_assoc, I1, IHc, rev_cons_app by auto. reflexivity. }
  destruct c as [|y c]; [reflexivity|]. set (d := y :: c) in *.
  replace (toks (Element m b d)) with (Open m b :: flat_map toks d ++ [Close m]) by reflexivity.
  cbn [app build]. rewrite <- app_assoc, J by auto. cbn [app build]. rewrite text_eqb_refl, app_nil_r, rev_involutive.
  reflexivity.
Qed.

Lemma build_root x : good x -> build [] None (toks x) = Some x.
Proof.
  destruct x as [n a c|t]; intros G; [|inversion G].
  assert (K : Forall (fun x => good x \/ exists t, x = Chars t) c).
  { inversion G; subst; [constructor; [right; eauto|constructor]|]. eapply Forall_impl; [|eassumption]. auto. }
  assert (J : forall c, Forall (fun x => good x \/ exists t, x = Chars t) c ->
    forall n a l open root r, build ((n, a, l) :: open) root (flat_map toks c ++ r) = build ((n, a, rev c ++ l) :: open) root r).
  { clear. induction c as [|x c IHc]; intros F n a l open root r; [reflexivity|].
    inversion F; subst. cbn [flat_map]. rewrite <- app_assoc, build_good, IHc, rev_cons_app by auto. reflexivity. }
  destruct c as [|y c]; [reflexivity|]. set (d := y :: c) in *.
  replace (toks (Element n a d)) with (Open n a :: flat_map toks d ++ [Close n]) by reflexivity.
  cbn [build]. rewrite J by auto. cbn [build]. rewrite text_eqb_refl, app_nil_r, rev_involutive. reflexivity.
Qed.

(** ** Documents *)

Definition no_return (t : text) : Prop := Forall (fun c => c <> "013"%char) t.

Lemma line_ends_none t : no_return t -> line_ends t = t.
Proof.
  induction 1 as [|c t A _ IH]; [reflexivity|]. cbn [line_ends]. rewrite eqb_no by auto. rewrite IH. reflexivity.
Qed.

Lemma name_no_return n : xml_name n = true -> no_return n.
Proof. intros A. eapply Forall_impl; [|apply xml_name_chars, A]. simpl. intros c Hc ->. discriminate Hc. Qed.

Lemma attributes_no_return l : Forall attribute_ok l -> no_return (show_attributes l).
Proof.
  unfold no_return. induction 1 as [|[n v] l [A V] _ IH]; [constructor|]. simpl in A, V.
  unfold show_attributes. cbn [flat_map]. apply Forall_app. split; [|exact IH].
  unfold show_attribute. cbn [fst snd]. constructor; [discriminate|].
  apply Forall_app. split; [apply name_no_return, A|].
  apply Forall_app. split; [repeat constructor; discriminate|].
  apply Forall_app. split; [|repeat constructor; discriminate].
  clear -V. induction V as [|c v A _ IH]; [constructor|]. unfold esc. cbn [flat_map]. apply Forall_app. split; [|exact IH].
  unfold esc_char.
  destruct (Ascii.eqb_spec c "&"%char); [repeat constructor; discriminate|].
  destruct (Ascii.eqb_spec c "<"%char); [repeat constructor; discriminate|].
  destruct (Ascii.eqb_spec c ">"%char); [repeat constructor; discriminate|].
  destruct (Ascii.eqb_spec c """"%char); [repeat constructor; discriminate|].
  destruct (Ascii.eqb_spec c "'"%char); [repeat constructor; discriminate|].
  repeat constructor. intros ->. unfold value_char in A. cbn in A. lia.
Qed.

Lemma good_no_return x : good x -> no_return (show x).
Proof.
  induction x as [t|n a c IH] using xml_induction; intros G; [inversion G|].
  assert (K : no_return n /\ no_return (show_attributes a) /\ no_return (flat_map show c)).
  { inversion G as [n' a' t A L T D|n' a' l' A L F]; subst; repeat split; auto using name_no_return, attributes_no_return.
    - cbn [flat_map]. rewrite app_nil_r. cbn [show]. destruct D as [D _]. eapply Forall_impl; [|exact D]. intros d (_ & _ & _ & R). exact R.
    - clear G. induction F as [|x l X _ IHl]; [constructor|]. apply Forall_cons_iff in IH as [I1 I2].
      cbn [flat_map]. apply Forall_app. split; [apply I1, X|apply IHl, I2]. }
  destruct K as (K1 & K2 & K3). unfold no_return in *. 
  destruct c as [|y c].
  - cbn [show]. constructor; [discriminate|]. rewrite !Forall_app. repeat split; auto; repeat constructor; discriminate.
  - set (d := y :: c) in *. replace (show (Element n a d)) with ("<"%char :: n ++ show_attributes a ++ [">"%char] ++ flat_map show d ++ lit "</" ++ n ++ [">"%char]) by reflexivity.
    constructor; [discriminate|]. rewrite !Forall_app. repeat split; auto; repeat constructor; discriminate.
Qed.

Lemma starts_with_app s t : starts_with (s ++ t) s = true.
Proof.
  induction s as [|c s IH]; [destruct t; reflexivity|]. cbn [app starts_with]. rewrite Ascii.eqb_refl. exact IH.
Qed.

Theorem document_good x : good x -> document (declaration ++ show x) = Some x.
Proof.
  intros G. unfold document. rewrite line_ends_none.
  2:{ apply Forall_app. split; [repeat constructor; discriminate|apply good_no_return, G]. }
  rewrite starts_with_app, skipn_app, skipn_all, Nat.sub_diag. cbn [app skipn].
  rewrite <- (app_nil_r (show x)), lex_good by exact G. cbn [tokens_of flush prepend].
  rewrite app_nil_r. apply build_root, G.
Qed.
