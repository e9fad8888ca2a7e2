(** * Proofs about documents of UncertML *)
From Coq Require Import String Ascii List Bool Arith Lia.
From Verif Require Import StringModel XmlModel XmlProofs UncertModel UncertSpec.
Import ListNotations.

(** ** Texts *)
Lemma text_eqb_spec a b : text_eqb a b = true <-> a = b.
Proof. unfold text_eqb. destruct (list_eq_dec ascii_dec a b); split; congruence. Qed.
Lemma is_spec s t : is s t = true <-> t = lit s.
Proof. unfold is. rewrite text_eqb_spec. split; congruence. Qed.

Lemma colon_some t : forall p l, colon t = Some (p, l) <-> plain p /\ t = p ++ ":"%char :: l.
Proof.
  unfold plain. induction t as [|c t IH]; intros p l; cbn [colon].
  - split; [discriminate|]. intros [_ E]. destruct p; discriminate.
  - destruct (Ascii.eqb_spec c ":"%char) as [->|N].
    + split.
      * intros [= <- <-]. split; [intros []|reflexivity].
      * intros [P E]. destruct p as [|d p]; cbn [app] in E; [inversion E; reflexivity|]. exfalso. apply P. left. inversion E; reflexivity.
    + destruct (colon t) as [[q r]|] eqn:C.
      * split.
        -- intros [= <- <-]. destruct (proj1 (IH q r) eq_refl) as [P E]. split; [intros [|]; [congruence|tauto]|]. cbn. congruence.
        -- intros [P E]. destruct p as [|d p]; cbn in E; [congruence|]. injection E as -> E.
           destruct (IH p l) as [_ H]. specialize (H (conj (fun i => P (or_intror i)) E)). injection H as -> ->. reflexivity.
      * split; [discriminate|]. intros [P E]. destruct p as [|d p]; cbn in E; [congruence|]. injection E as -> E.
        destruct (IH p l) as [_ H]. specialize (H (conj (fun i => P (or_intror i)) E)). discriminate.
Qed.
Lemma colon_none t : colon t = None <-> plain t.
Proof.
  unfold plain. induction t as [|c t IH]; cbn [colon In]; [tauto|]. destruct (Ascii.eqb_spec c ":"%char) as [->|N].
  - split; [discriminate|]. intros H. exfalso. apply H. auto.
  - destruct (colon t) as [[q r]|]; split; try discriminate.
    + intros H. exfalso. destruct IH as [_ IH]. assert (X : Some (q, r) = None) by (apply IH; tauto). discriminate.
    + intros _ [|]; [congruence|]. apply IH; auto.
    + reflexivity.
Qed.

Lemma qualified_spec name p l : plain l -> qualified name = (p, l) <-> name_is name p l.
Proof.
  intros L. unfold qualified, name_is. destruct (colon name) as [[q r]|] eqn:C.
  - pose proof (proj1 (colon_some _ _ _) C) as [Q E]. split.
    + intros [= <- <-]. auto.
    + intros [[P E']|(-> & P & E')].
      * assert (C' : colon name = Some (p, l)) by (apply colon_some; auto). congruence.
      * exfalso. apply P. rewrite <- E', E. apply in_or_app. right. left. reflexivity.
  - pose proof (proj1 (colon_none _) C) as P. split.
    + intros [= <- <-]. auto.
    + intros [[_ E]|(-> & _ & ->)]; [|reflexivity]. exfalso. apply P. rewrite E. apply in_or_app. right. left. reflexivity.
Qed.

Lemma declares_spec n p : declares n = Some p <-> declaration_of n p.
Proof.
  unfold declares, declaration_of. destruct (is "xmlns" n) eqn:X.
  - apply is_spec in X. subst n. split.
    + intros [= <-]. auto.
    + intros [[_ ->]|E]; [reflexivity|]. discriminate.
  - assert (N : n <> lit "xmlns") by (intros ->; rewrite (proj2 (is_spec _ _)) in X; [discriminate|reflexivity]).
    unfold qualified. destruct (colon n) as [[q r]|] eqn:C.
    + pose proof (proj1 (colon_some _ _ _) C) as [Q E]. destruct (is "xmlns" q) eqn:Y.
      * apply is_spec in Y. subst q. split.
        -- intros [= <-]. right. rewrite E. reflexivity.
        -- intros [[]|E']; [contradiction|]. rewrite E in E'. cbn in E'. injection E' as ->. reflexivity.
      * split; [discriminate|]. intros [[]|E']; [contradiction|]. exfalso.
        assert (C' : colon n = Some (lit "xmlns", p)).
        { apply colon_some. split; [|rewrite E'; reflexivity]. unfold plain. vm_compute. intuition discriminate. }
        assert (q = lit "xmlns") by congruence. subst q. rewrite (proj2 (is_spec _ _)) in Y by reflexivity. discriminate.
    + cbn. split; [discriminate|]. intros [[]|E']; [contradiction|]. exfalso.
      apply colon_none in C. apply C. rewrite E'. vm_compute. auto 10.
Qed.

Lemma declarations_declared a : declared a (declarations a).
Proof.
  induction a as [|[n v] a IH]; cbn [declarations]; [constructor|]. destruct (declares n) as [p|] eqn:E.
  - constructor; [apply declares_spec; exact E|exact IH].
  - constructor; [|exact IH]. intros p H. apply declares_spec in H. congruence.
Qed.
Lemma declared_declarations a s : declared a s -> s = declarations a.
Proof.
  induction 1 as [|n p v a s H _ IH|n v a s H _ IH]; cbn [declarations]; [reflexivity| |].
  - apply declares_spec in H. rewrite H, IH. reflexivity.
  - destruct (declares n) as [p|] eqn:E; [|exact IH]. apply declares_spec in E. exfalso. eapply H. exact E.
Qed.

Lemma lookup_spec scope : forall p uri, uri <> [] -> lookup p scope = Some uri <-> stands_for scope p uri.
Proof.
  unfold stands_for. induction scope as [|[q u] scope IH]; intros p uri N; cbn [lookup].
  - split.
    + destruct p; congruence.
    + intros (b & a & E & _). destruct b; discriminate.
  - destruct (text_eqb q p) eqn:E.
    + apply text_eqb_spec in E. subst q. split.
      * intros [= <-]. exists [], scope. split; [reflexivity|intros []].
      * intros (b & a & E & H). destruct b as [|x b]; cbn [app] in E; [inversion E; subst; reflexivity|].
        exfalso. apply H. left. inversion E; subst; reflexivity.
    + assert (Q : q <> p) by (intros ->; rewrite (proj2 (text_eqb_spec p p)) in E; [discriminate|reflexivity]).
      rewrite IH by exact N. split.
      * intros (b & a & -> & H). exists ((q, u) :: b), a. split; [reflexivity|]. cbn. intros [|]; tauto.
      * intros (b & a & E' & H). destruct b as [|x b]; cbn [app] in E'; [exfalso; apply Q; inversion E'; reflexivity|].
        exists b, a. split; [inversion E'; reflexivity|]. intros X. apply H. right. exact X.
Qed.

Lemma named_spec scope n local : plain (lit local) -> named scope n local = true <-> of_uncertml scope n local.
Proof.
  intros L. unfold named, of_uncertml. destruct (qualified n) as [p l] eqn:Q.
  assert (NE : lit "http://www.uncertml.org/2.0" <> []) by discriminate. split.
  - destruct (lookup p scope) as [uri|] eqn:U; [|discriminate]. intros H. apply andb_prop in H as [H1 H2].
    apply text_eqb_spec in H1. apply is_spec in H2. subst l uri. exists p. split; [apply qualified_spec; assumption|].
    apply lookup_spec; [exact NE|exact U].
  - intros (q & N & S). apply qualified_spec in N; [|exact L]. assert (E : (p, l) = (q, lit local)) by congruence.
    injection E as -> ->. apply lookup_spec in S; [|exact NE]. rewrite S. rewrite (proj2 (text_eqb_spec _ _)), (proj2 (is_spec _ _)); reflexivity.
Qed.

Lemma allowed_spec names a : allowed names a = true <-> has_only names a.
Proof.
  unfold allowed, has_only. rewrite forallb_forall, Forall_forall. split; intros H x X; specialize (H x X).
  - destruct (declares (fst x)) as [p|] eqn:E.
    + left. exists p. apply declares_spec. exact E.
    + right. apply existsb_exists in H as (n & I & E'). apply is_spec in E'. eauto.
  - destruct H as [[p P]|(n & I & E)].
    + apply declares_spec in P. rewrite P. reflexivity.
    + destruct (declares (fst x)); [reflexivity|]. apply existsb_exists. exists n. split; [exact I|]. apply is_spec. exact E.
Qed.

(** ** Words *)
Lemma white_spec c : white c = true <-> In c [" "; "009"; "010"; "013"]%char.
Proof.
  destruct c as [[] [] [] [] [] [] [] []]; vm_compute; intuition discriminate.
Qed.
Lemma blank_spec t : forallb white t = true <-> blank t.
Proof. unfold blank. rewrite forallb_forall, Forall_forall. split; intros H c C; apply white_spec; auto. Qed.

Lemma words_blank s : blank s -> forall t, words [] (s ++ t) = words [] t.
Proof. induction 1 as [|c s C _ IH]; intros t; [reflexivity|]. cbn [app words]. apply white_spec in C. rewrite C. apply IH. Qed.
Lemma words_word w : Forall (fun c => ~ In c [" "; "009"; "010"; "013"]%char) w -> forall cur t, words cur (w ++ t) = words (rev w ++ cur) t.
Proof.
  induction 1 as [|c w C _ IH]; intros cur t; [reflexivity|]. cbn [app words rev].
  destruct (white c) eqn:W; [exfalso; apply C; apply white_spec; exact W|]. rewrite IH, <- app_assoc. reflexivity.
Qed.
Lemma rev_not_nil (w : text) : w <> [] -> rev w <> [].
Proof. intros H E. apply H. rewrite <- (rev_involutive w), E. reflexivity. Qed.
Lemma words_complete t l : words_of t l -> words [] t = l.
Proof.
  induction 1 as [t B|s w B [W1 W2]|s w b r l B [W1 W2] Bb _ IH].
  - rewrite <- (app_nil_r t), words_blank by exact B. reflexivity.
  - rewrite words_blank by exact B. rewrite <- (app_nil_r w) at 1. rewrite words_word by exact W2. rewrite app_nil_r. cbn [words].
    pose proof (rev_not_nil w W1) as R. destruct (rev w) eqn:E; [congruence|]. rewrite <- E, rev_involutive. reflexivity.
  - rewrite words_blank, words_word by assumption. rewrite app_nil_r. cbn [words].
    inversion Bb as [|? ? Hb _]. apply white_spec in Hb. rewrite Hb.
    pose proof (rev_not_nil w W1) as R. destruct (rev w) eqn:E; [congruence|]. rewrite <- E, rev_involutive, IH. reflexivity.
Qed.
Lemma words_sound t : words_of t (words [] t) /\ forall cur, cur <> [] -> Forall (fun c => ~ In c [" "; "009"; "010"; "013"]%char) cur ->
  words_of (rev cur ++ t) (words cur t).
Proof.
  induction t as [|c t [IH1 IH2]].
  - split; [constructor; constructor|]. intros cur N F. cbn [words]. destruct cur as [|d cur]; [congruence|].
    rewrite app_nil_r. change (rev (d :: cur)) with ([] ++ rev (d :: cur)) at 1. constructor; [constructor|].
    split; [apply rev_not_nil; discriminate|]. apply Forall_rev. exact F.
  - cbn [words]. destruct (white c) eqn:W.
    + apply white_spec in W. assert (Bc : blank [c]) by (constructor; [exact W|constructor]). split.
      * inversion IH1 as [t' B E1 E2|s w B Hw E1 E2|s w b r l B Hw Hb HR E1 E2].
        -- subst. constructor. constructor; assumption.
        -- change (c :: s ++ w) with ((c :: s) ++ w). constructor; [constructor; assumption|exact Hw].
        -- change (c :: s ++ w ++ b :: r) with ((c :: s) ++ w ++ b :: r). constructor; try assumption. constructor; assumption.
      * intros cur N F. destruct cur as [|d cur]; [congruence|].
        change (rev (d :: cur) ++ c :: t) with ([] ++ rev (d :: cur) ++ c :: t). constructor; [constructor| |exact Bc|exact IH1].
        split; [apply rev_not_nil; discriminate|]. apply Forall_rev. exact F.
    + assert (NW : ~ In c [" "; "009"; "010"; "013"]%char) by (intros X; apply white_spec in X; congruence). split.
      * specialize (IH2 [c] ltac:(discriminate) (Forall_cons c NW (Forall_nil _))). cbn [rev app] in IH2.
        destruct t; exact IH2.
      * intros cur N F. specialize (IH2 (c :: cur) ltac:(discriminate) (Forall_cons c NW F)). cbn [rev] in IH2.
        rewrite <- app_assoc in IH2. cbn [app] in IH2. destruct cur; [congruence|exact IH2].
Qed.
Lemma words_spec t l : words [] t = l <-> words_of t l.
Proof. split; [intros <-; apply words_sound|apply words_complete]. Qed.

Lemma characters_spec c : forall t, characters c = Some t <-> exists l, c = map Chars l /\ t = concat l.
Proof.
  induction c as [|x c IH]; intros t; cbn [characters].
  - split.
    + intros [= <-]. exists []. auto.
    + intros (l & E & ->). destruct l; [reflexivity|discriminate].
  - destruct x as [n a k|u].
    + split; [discriminate|]. intros (l & E & _). destruct l; discriminate.
    + split.
      * destruct (characters c) as [r|]; [|discriminate]. intros [= <-]. destruct (proj1 (IH r) eq_refl) as (l & -> & ->).
        exists (u :: l). auto.
      * intros (l & E & ->). destruct l as [|v l]; [discriminate|]. injection E as -> E.
        rewrite (proj2 (IH (concat l))) by eauto. reflexivity.
Qed.

(** ** The parser *)
Section Parser.
Variable D : Type.
Variable read_double : text -> option D.
Variable sqrt : D -> D.
Variables positive nonnegative : D -> bool.
Notation items := (items D read_double).
Notation numbers := (numbers D read_double).
Notation sequence := (sequence D read_double positive).
Notation reads := (Forall2 (fun w d => read_double w = Some d)).

Lemma items_release check l : forall r, items false check l = Go r <-> reads l r.
Proof.
  induction l as [|t l IH]; intros r; cbn [UncertModel.items andb].
  - split; [intros [= <-]; constructor|]. intros H. inversion H. reflexivity.
  - split.
    + destruct (read_double t) as [d|] eqn:R; [|discriminate]. destruct (items false check l) as [r'|]; [|discriminate].
      intros [= <-]. constructor; [exact R|]. apply IH. reflexivity.
    + intros H. inversion H as [|? d ? r' R F]; subst. rewrite R. rewrite (proj2 (IH r') F). reflexivity.
Qed.
Lemma items_stop check l o : items false check l = Stop o -> o = Throws.
Proof.
  revert o. induction l as [|t l IH]; intros o; cbn [UncertModel.items andb]; [discriminate|].
  destruct (read_double t); [|congruence]. destruct (items false check l); [discriminate|]. intros [= <-]. apply IH. reflexivity.
Qed.
Lemma items_debug check l :
  match items true check l with
  | Go r => items false check l = Go r /\ forallb check r = true
  | Stop Throws => items false check l = Stop Throws
  | Stop Aborts => forall r, items false check l = Go r -> forallb check r = false
  | Stop _ => False
  end.
Proof.
  induction l as [|t l IH]; cbn [UncertModel.items andb]; [auto|]. destruct (read_double t) as [d|]; [|reflexivity].
  destruct (check d) eqn:C; cbn [negb].
  - destruct (items true check l) as [r|[]].
    + destruct IH as [-> F]. cbn [forallb]. rewrite C, F. auto.
    + contradiction.
    + rewrite IH. reflexivity.
    + intros r. destruct (items false check l) as [r'|]; [|discriminate]. intros [= <-]. cbn [forallb]. rewrite C. apply IH. reflexivity.
    + contradiction.
  - intros r. destruct (items false check l) as [r'|]; [|discriminate]. intros [= <-]. cbn [forallb]. rewrite C. reflexivity.
Qed.

Lemma numbers_release check a c r :
  numbers false check a c = Go r <->
  exists texts l, c = map Chars texts /\ has_only ["href"; "mimeType"]%string a /\ words_of (concat texts) l /\ reads l r.
Proof.
  unfold UncertModel.numbers. split.
  - destruct (allowed reference a) eqn:A; [|discriminate]. apply allowed_spec in A.
    destruct (characters c) as [t|] eqn:C; [|discriminate]. apply characters_spec in C as (texts & -> & ->).
    intros H. apply items_release in H. exists texts, (words [] (concat texts)). split; [reflexivity|]. split; [exact A|].
    split; [apply words_spec; reflexivity|exact H].
  - intros (texts & l & -> & A & W & R). apply allowed_spec in A. fold reference in A. rewrite A.
    rewrite (proj2 (characters_spec _ (concat texts))) by eauto. apply words_spec in W. rewrite W. apply items_release. exact R.
Qed.
Lemma numbers_stop check a c o : numbers false check a c = Stop o -> o = Throws.
Proof.
  unfold UncertModel.numbers. destruct (allowed reference a); [|congruence]. destruct (characters c); [|congruence]. apply items_stop.
Qed.
Lemma numbers_debug check a c :
  match numbers true check a c with
  | Go r => numbers false check a c = Go r /\ forallb check r = true
  | Stop Throws => numbers false check a c = Stop Throws
  | Stop Aborts => forall r, numbers false check a c = Go r -> forallb check r = false
  | Stop _ => False
  end.
Proof.
  unfold UncertModel.numbers. destruct (allowed reference a); [|reflexivity]. destruct (characters c); [|reflexivity]. apply items_debug.
Qed.

(** What is left of the content of a distribution *)
Lemma list_element_spec scope local n a c r : plain (lit local) ->
  (named (declarations a ++ scope) n local = true /\ numbers false (fun _ => true) a c = Go r) <->
  exists l, list_element scope local (Element n a c) l /\ reads l r.
Proof.
  intros L. unfold list_element. split.
  - intros [N H]. apply numbers_release in H as (texts & l & -> & A & W & R). apply named_spec in N; [|exact L].
    exists l. split; [|exact R]. exists n, a, (declarations a), texts. repeat split; auto. apply declarations_declared.
  - intros (l & (n' & a' & own & texts & E & Dd & U & A & W) & R). injection E as <- <- ->.
    apply declared_declarations in Dd. subst own. split; [apply named_spec; assumption|]. apply numbers_release. exists texts, l. auto.
Qed.
Lemma numbers_same check check' a c : numbers false check a c = numbers false check' a c.
Proof.
  unfold UncertModel.numbers. destruct (allowed reference a); [|reflexivity]. destruct (characters c) as [t|]; [|reflexivity].
  induction (words [] t) as [|w l IH]; [reflexivity|]. cbn [UncertModel.items andb]. rewrite IH. reflexivity.
Qed.

Lemma spaces_cons x l : spaces (x :: l) <-> (exists t, x = Chars t /\ blank t) /\ spaces l.
Proof. unfold spaces. split; [intros H; inversion H; auto|intros [A B]; constructor; assumption]. Qed.

Lemma sequence_both scope m v c p : sequence false scope (Both m v) c = Go p <-> p = (m, v) /\ spaces c.
Proof.
  induction c as [|[n a k|t] c IH]; cbn [UncertModel.sequence].
  - split; [intros [= <-]; split; [reflexivity|constructor]|intros [-> _]; reflexivity].
  - split; [discriminate|]. intros [_ S]. apply spaces_cons in S as [(t & E & _) _]. discriminate.
  - rewrite spaces_cons. destruct (forallb white t) eqn:W.
    + apply blank_spec in W. rewrite IH. split; [intros [-> S]; repeat split; eauto|tauto].
    + split; [discriminate|]. intros [_ [(u & [= <-] & B) _]]. apply blank_spec in B. congruence.
Qed.
Lemma sequence_mean scope m c p : sequence false scope (Mean m) c = Go p <->
  exists v s2 x s3 l, p = (m, v) /\ c = s2 ++ x :: s3 /\ spaces s2 /\ spaces s3 /\ list_element scope "variance" x l /\ reads l v.
Proof.
  assert (PL : plain (lit "variance")) by (unfold plain; vm_compute; intuition discriminate).
  induction c as [|[n a k|t] c IH]; cbn [UncertModel.sequence].
  - split; [discriminate|]. intros (v & s2 & x & s3 & l & _ & E & _). destruct s2; discriminate.
  - split.
    + destruct (named (declarations a ++ scope) n "variance") eqn:N; [|discriminate].
      rewrite (numbers_same positive (fun _ => true)). destruct (numbers false (fun _ => true) a k) as [v|] eqn:NV; [|discriminate].
      intros H. apply sequence_both in H as [-> S]. destruct (proj1 (list_element_spec scope "variance" n a k v PL) (conj N NV)) as (l & LE & R).
      exists v, [], (Element n a k), c, l. repeat split; auto. constructor.
    + intros (v & s2 & x & s3 & l & -> & E & S2 & S3 & LE & R). destruct s2 as [|y s2].
      * injection E as <- <-. destruct (proj2 (list_element_spec scope "variance" n a k v PL) (ex_intro _ l (conj LE R))) as [N NV].
        rewrite N, (numbers_same positive (fun _ => true)), NV. apply sequence_both. auto.
      * injection E as <- ->. apply spaces_cons in S2 as [(t & T & _) _]. discriminate.
  - destruct (forallb white t) eqn:W.
    + rewrite IH. split.
      * intros (v & s2 & x & s3 & l & -> & -> & S2 & H). exists v, (Chars t :: s2), x, s3, l. split; [reflexivity|]. split; [reflexivity|].
        split; [apply spaces_cons; split; [apply blank_spec in W; eauto|exact S2]|exact H].
      * intros (v & s2 & x & s3 & l & -> & E & S2 & S3 & LE & R). destruct s2 as [|y s2].
        -- injection E as <- <-. destruct LE as (? & ? & ? & ? & X & _). discriminate.
        -- injection E as <- ->. apply spaces_cons in S2 as [_ S2]. exists v, s2, x, s3, l. auto 10.
    + split; [discriminate|]. intros (v & s2 & x & s3 & l & -> & E & S2 & S3 & LE & R). destruct s2 as [|y s2].
      * injection E as <- <-. destruct LE as (? & ? & ? & ? & X & _). discriminate.
      * injection E as <- ->. apply spaces_cons in S2 as [(u & [= <-] & B) _]. apply blank_spec in B. congruence.
Qed.
Lemma sequence_neither scope c m v : sequence false scope Neither c = Go (m, v) <->
  exists s1 x s2 y s3 k l, c = s1 ++ x :: s2 ++ y :: s3 /\ spaces s1 /\ spaces s2 /\ spaces s3 /\
    list_element scope "mean" x k /\ reads k m /\ list_element scope "variance" y l /\ reads l v.
Proof.
  assert (PL : plain (lit "mean")) by (unfold plain; vm_compute; intuition discriminate).
  induction c as [|[n a k|t] c IH]; cbn [UncertModel.sequence].
  - split; [discriminate|]. intros (s1 & x & s2 & y & s3 & k & l & E & _). destruct s1; discriminate.
  - split.
    + destruct (named (declarations a ++ scope) n "mean") eqn:N; [|discriminate].
      destruct (numbers false (fun _ => true) a k) as [m'|] eqn:NV; [|discriminate].
      intros H. apply sequence_mean in H as (v' & s2 & y & s3 & l & [= <- <-] & -> & S2 & S3 & LE & R).
      destruct (proj1 (list_element_spec scope "mean" n a k m PL) (conj N NV)) as (l' & LE' & R').
      exists [], (Element n a k), s2, y, s3, l', l. repeat split; auto. constructor.
    + intros (s1 & x & s2 & y & s3 & k' & l & E & S1 & S2 & S3 & LE & R & LE' & R'). destruct s1 as [|z s1].
      * injection E as <- ->. destruct (proj2 (list_element_spec scope "mean" n a k m PL) (ex_intro _ k' (conj LE R))) as [N NV].
        rewrite N, NV. apply sequence_mean. exists v, s2, y, s3, l. auto 10.
      * injection E as <- ->. apply spaces_cons in S1 as [(t & T & _) _]. discriminate.
  - destruct (forallb white t) eqn:W.
    + rewrite IH. split.
      * intros (s1 & x & s2 & y & s3 & k & l & -> & S1 & H). exists (Chars t :: s1), x, s2, y, s3, k, l. split; [reflexivity|].
        split; [apply spaces_cons; split; [apply blank_spec in W; eauto|exact S1]|exact H].
      * intros (s1 & x & s2 & y & s3 & k & l & E & S1 & H). destruct s1 as [|z s1].
        -- injection E as <- ->. destruct H as (_ & _ & (? & ? & ? & ? & X & _) & _). discriminate.
        -- injection E as <- ->. apply spaces_cons in S1 as [_ S1]. exists s1, x, s2, y, s3, k, l. auto 10.
    + split; [discriminate|]. intros (s1 & x & s2 & y & s3 & k & l & E & S1 & H). destruct s1 as [|z s1].
      * injection E as <- ->. destruct H as (_ & _ & (? & ? & ? & ? & X & _) & _). discriminate.
      * injection E as <- ->. apply spaces_cons in S1 as [(u & [= <-] & B) _]. apply blank_spec in B. congruence.
Qed.

Lemma sequence_stop scope c : forall s o, sequence false scope s c = Stop o -> o = Throws.
Proof.
  induction c as [|[n a k|t] c IH]; intros s o; cbn [UncertModel.sequence].
  - destruct s; congruence.
  - destruct s as [|m|m v]; [| |congruence].
    + destruct (named _ n _); [|congruence]. destruct (numbers false _ a k) eqn:N; [apply IH|]. intros [= <-]. eapply numbers_stop. exact N.
    + destruct (named _ n _); [|congruence]. destruct (numbers false _ a k) eqn:N; [apply IH|]. intros [= <-]. eapply numbers_stop. exact N.
  - destruct (forallb white t); [apply IH|congruence].
Qed.

(** Debug builds do the same, or abort *)
Definition checked (s : seen D) : bool := match s with Both _ v => forallb positive v | _ => true end.
Lemma sequence_debug scope c : forall s, checked s = true ->
  match sequence true scope s c with
  | Go (m, v) => sequence false scope s c = Go (m, v) /\ forallb positive v = true
  | Stop Throws => sequence false scope s c = Stop Throws
  | Stop Aborts => forall m v, sequence false scope s c = Go (m, v) -> forallb positive v = false
  | Stop _ => False
  end.
Proof.
  induction c as [|[n a k|t] c IH]; intros s CH; cbn [UncertModel.sequence].
  - destruct s; auto.
  - destruct s as [|m|m v]; [| |reflexivity].
    + destruct (named _ n _); [|reflexivity]. pose proof (numbers_debug (fun _ => true) a k) as N.
      destruct (numbers true (fun _ => true) a k) as [r|[]]; try contradiction.
      * destruct N as [-> _]. apply IH. reflexivity.
      * rewrite N. reflexivity.
      * intros m v. destruct (numbers false (fun _ => true) a k) as [r|]; [|discriminate]. specialize (N r eq_refl).
        assert (T : forallb (fun _ : D => true) r = true) by (clear; induction r; cbn; auto). congruence.
    + destruct (named _ n _); [|reflexivity]. pose proof (numbers_debug positive a k) as N.
      destruct (numbers true positive a k) as [r|[]]; try contradiction.
      * destruct N as [-> P]. apply IH. exact P.
      * rewrite N. reflexivity.
      * intros m' v. destruct (numbers false positive a k) as [r|] eqn:E; [|discriminate]. specialize (N r eq_refl).
        intros H. apply sequence_both in H as [[= -> ->] _]. exact N.
  - destruct (forallb white t); [apply IH; exact CH|reflexivity].
Qed.

(** ** Documents *)
Lemma parse_stages debug t :
  parse D read_double sqrt positive nonnegative debug t =
  match document t with
  | Some (Element n a c) =>
      if named (declarations a) n "NormalDistribution" && allowed [] a
      then match sequence debug (declarations a) Neither c with
           | Go (m, v) => post D sqrt nonnegative debug m v | Stop o => o end
      else Throws
  | _ => Throws
  end.
Proof. unfold parse. destruct (document t) as [[|]|]; reflexivity. Qed.

Lemma describes_spec t m v :
  describes read_double t m v <->
  exists n a c, document t = Some (Element n a c) /\ named (declarations a) n "NormalDistribution" && allowed [] a = true /\
    sequence false (declarations a) Neither c = Go (m, v).
Proof.
  assert (PL : plain (lit "NormalDistribution")) by (unfold plain; vm_compute; intuition discriminate).
  unfold describes, normal_distribution. split.
  - intros (x & ms & vs & Hd & (n & a & scope & s1 & y & s2 & z & s3 & -> & Dd & U & A & S1 & S2 & S3 & LE & LE') & R & R').
    apply declared_declarations in Dd. subst scope. exists n, a, (s1 ++ y :: s2 ++ z :: s3). split; [exact Hd|]. split.
    + apply andb_true_intro. split; [apply named_spec; assumption|apply allowed_spec; exact A].
    + apply sequence_neither. exists s1, y, s2, z, s3, ms, vs. auto 10.
  - intros (n & a & c & Hd & NA & S). apply andb_prop in NA as [N A]. apply named_spec in N; [|exact PL]. apply allowed_spec in A.
    apply sequence_neither in S as (s1 & x & s2 & y & s3 & k & l & -> & S1 & S2 & S3 & LE & R & LE' & R').
    exists (Element n a (s1 ++ x :: s2 ++ y :: s3)), k, l. split; [exact Hd|]. split; [|auto].
    exists n, a, (declarations a), s1, x, s2, y, s3. repeat split; auto. apply declarations_declared.
Qed.
Lemma describes_unique t m v m' v' : describes read_double t m v -> describes read_double t m' v' -> m = m' /\ v = v'.
Proof.
  rewrite !describes_spec. intros (n & a & c & H1 & _ & H2) (n' & a' & c' & H1' & _ & H2').
  rewrite H1 in H1'. injection H1' as <- <- <-. rewrite H2 in H2'. injection H2' as <- <-. auto.
Qed.
(** Each text describes something, or is refused *)
Lemma describes_cases t :
  (exists m v, describes read_double t m v /\ parse D read_double sqrt positive nonnegative false t = post D sqrt nonnegative false m v) \/
  ((forall m v, ~ describes read_double t m v) /\ parse D read_double sqrt positive nonnegative false t = Throws).
Proof.
  rewrite parse_stages. destruct (document t) as [[n a c|]|] eqn:Hd.
  - destruct (named (declarations a) n "NormalDistribution" && allowed [] a) eqn:NA.
    + destruct (sequence false (declarations a) Neither c) as [[m v]|o] eqn:S.
      * left. exists m, v. split; [|reflexivity]. apply describes_spec. exists n, a, c. auto.
      * right. split; [|eapply sequence_stop; exact S]. intros m v H. apply describes_spec in H as (n' & a' & c' & H1 & _ & H2).
        rewrite Hd in H1. injection H1 as <- <- <-. congruence.
    + right. split; [|reflexivity]. intros m v H. apply describes_spec in H as (n' & a' & c' & H1 & H2 & _).
      rewrite Hd in H1. injection H1 as <- <- <-. congruence.
  - right. split; [|reflexivity]. intros m v H. apply describes_spec in H as (n' & a' & c' & H1 & _). congruence.
  - right. split; [|reflexivity]. intros m v H. apply describes_spec in H as (n' & a' & c' & H1 & _). congruence.
Qed.
Lemma describes_debug t m v : describes read_double t m v ->
  parse D read_double sqrt positive nonnegative true t = if forallb positive v then post D sqrt nonnegative true m v else Aborts.
Proof.
  intros H. apply describes_spec in H as (n & a & c & Hd & NA & S). rewrite parse_stages, Hd, NA.
  pose proof (sequence_debug (declarations a) c Neither eq_refl) as G.
  destruct (sequence true (declarations a) Neither c) as [[m' v']|[]]; try contradiction.
  - destruct G as [G P]. rewrite S in G. injection G as <- <-. rewrite P. reflexivity.
  - congruence.
  - rewrite (G m v S). reflexivity.
Qed.
Lemma not_described_debug t : (forall m v, ~ describes read_double t m v) ->
  parse D read_double sqrt positive nonnegative true t = Throws \/ parse D read_double sqrt positive nonnegative true t = Aborts.
Proof.
  intros N. rewrite parse_stages. destruct (document t) as [[n a c|]|] eqn:Hd; auto.
  destruct (named (declarations a) n "NormalDistribution" && allowed [] a) eqn:NA; auto.
  pose proof (sequence_debug (declarations a) c Neither eq_refl) as G.
  destruct (sequence true (declarations a) Neither c) as [[m v]|[]]; try contradiction; auto.
  exfalso. destruct G as [G _]. apply (N m v). apply describes_spec. exists n, a, c. auto.
Qed.
End Parser.
