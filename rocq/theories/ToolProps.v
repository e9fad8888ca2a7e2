(** * C82: the command line tool *)
From Coq Require Import String ZArith List Bool Ascii Lia.
From Verif Require Import StringModel FeatureModel FieldModel DriverModel ToolModel ToolSpec.
Import ListNotations.

Lemma word_iff w t : is_word w t = true <-> t = lit w.
Proof. unfold is_word, same_text. destruct (list_eq_dec ascii_dec t (lit w)); split; auto; discriminate. Qed.
Lemma word_yes w : is_word w (lit w) = true.
Proof. apply word_iff. reflexivity. Qed.
Lemma word_no w t : t <> lit w -> is_word w t = false.
Proof. intros N. destruct (is_word w t) eqn:E; auto. apply word_iff in E. contradiction. Qed.
Lemma word_other w v : lit v <> lit w -> is_word w (lit v) = false.
Proof. apply word_no. Qed.
(** Decides what a word is that is written out or known not to be another. *)
Ltac word :=
  repeat match goal with
  | |- context [is_word ?w (lit ?w)] => rewrite (word_yes w)
  | H : ?t <> lit ?w |- context [is_word ?w ?t] => rewrite (word_no w t H)
  | |- context [is_word ?w (lit ?v)] => rewrite (word_other w v) by (vm_compute; discriminate)
  end.

Lemma put_same fs n t : put fs n t n = Some t.
Proof. unfold put, same_text. destruct (list_eq_dec ascii_dec n n); congruence. Qed.
Lemma put_other fs n t m : m <> n -> put fs n t m = fs m.
Proof. intros D. unfold put, same_text. destruct (list_eq_dec ascii_dec m n); congruence. Qed.
Lemma input_of a n : script_name a n -> input_name a = n.
Proof. unfold input_name. intros [[-> ->]|[N ->]]; [reflexivity|]. rewrite (word_no "-" a N). reflexivity. Qed.
Lemma input_is a : script_name a (input_name a).
Proof. unfold script_name, input_name. destruct (is_word "-" a) eqn:E; [apply word_iff in E; auto|]. right. split; auto. intros ->. discriminate. Qed.

Lemma options_nil w1 w2 c d : options w1 w2 [] c d -> c = false /\ d = false.
Proof. intros (_ & C & D). split; [destruct c|destruct d]; auto; exfalso; [apply (proj1 C eq_refl)|apply (proj1 D eq_refl)]. Qed.

Section Options.
Variables (w1 w2 : string) (go : list text -> bool -> bool -> bool * bool * list text).
Hypothesis D : lit w1 <> lit w2.
Hypothesis G1 : forall l x y, go (lit w1 :: l) x y = go l true y.
Hypothesis G2 : forall l x y, go (lit w2 :: l) x y = go l x true.
Hypothesis G0 : forall x y, go [] x y = (x, y, []).
Hypothesis G : forall a l x y, a <> lit w1 -> a <> lit w2 -> go (a :: l) x y = (x, y, a :: l).
Definition behind (names : list text) : Prop := match names with [] => True | a :: _ => a <> lit w1 /\ a <> lit w2 end.
Lemma go_options names : behind names -> forall o c d x y, options w1 w2 o c d -> go (o ++ names) x y = (x || c, y || d, names).
Proof.
  intros B. induction o as [|a o IH]; intros c d x y O.
  - destruct (options_nil _ _ _ _ O) as [-> ->]. rewrite !orb_false_r. cbn [app]. destruct names as [|n names]; [apply G0|]. destruct B. auto.
  - destruct O as (A & C & E). cbn [app].
    assert (O1 : forall b, (b = true <-> In (lit w1) o) -> forall e, (e = true <-> In (lit w2) o) -> options w1 w2 o b e).
    { intros b Hb e He. split; auto. intros u U. apply A. right. exact U. }
    assert (X : forall w, exists b : bool, b = true <-> In (lit w) o).
    { intros w. destruct (in_dec (list_eq_dec ascii_dec) (lit w) o) as [I|I]; [exists true|exists false]; split; auto; try discriminate; contradiction. }
    destruct (X w1) as [b Hb]. destruct (X w2) as [e He]. specialize (IH b e).
    destruct (A a (or_introl eq_refl)) as [-> | ->]; [rewrite G1|rewrite G2]; rewrite (IH _ _ (O1 b Hb e He)).
    + rewrite (proj2 C (or_introl eq_refl)), !orb_true_r. cbn [orb].
      replace e with d; auto. destruct d, e; auto; [symmetry; apply He; destruct (proj1 E eq_refl) as [Q|Q]; [congruence|exact Q]|apply E; right; apply He; reflexivity].
    + rewrite (proj2 E (or_introl eq_refl)), !orb_true_r. cbn [orb].
      replace b with c; auto. destruct c, b; auto; [symmetry; apply Hb; destruct (proj1 C eq_refl) as [Q|Q]; [congruence|exact Q]|apply C; right; apply Hb; reflexivity].
Qed.
(** What has been skipped is a list of options. *)
Lemma go_skips : forall l x y, exists o c d, options w1 w2 o c d /\ l = o ++ snd (go l x y).
Proof.
  induction l as [|a l IH]; intros x y.
  - exists [], false, false. rewrite G0. split; auto. split; [intros ? []|]. split; split; try discriminate; intros [].
  - assert (N : forall z, exists o c d, options w1 w2 o c d /\ z = o ++ z).
    { intros z. exists [], false, false. split; auto. split; [intros ? []|]. split; split; try discriminate; intros []. }
    destruct (list_eq_dec ascii_dec a (lit w1)) as [->|N1].
    + rewrite G1. destruct (IH true y) as (o & c & d & O & E). exists (lit w1 :: o), true, d. split; [|cbn [app]; congruence].
      destruct O as (A & C & F). split; [|split].
      * intros u [<-|U]; auto.
      * split; auto. intros _. left. reflexivity.
      * rewrite F. split; [right; auto|intros [Q|Q]; [congruence|auto]].
    + destruct (list_eq_dec ascii_dec a (lit w2)) as [->|N2].
      * rewrite G2. destruct (IH x true) as (o & c & d & O & E). exists (lit w2 :: o), c, true. split; [|cbn [app]; congruence].
        destruct O as (A & C & F). split; [|split].
        -- intros u [<-|U]; auto.
        -- rewrite C. split; [right; auto|intros [Q|Q]; [congruence|auto]].
        -- split; auto. intros _. left. reflexivity.
      * rewrite G by auto. apply N.
Qed.
End Options.

Lemma cpp_given names o c d x y : behind "--dump_cmake" "--dump_driver" names -> options "--dump_cmake" "--dump_driver" o c d ->
  cpp_options (o ++ names) x y = (x || c, y || d, names).
Proof.
  intros B O. apply (go_options "--dump_cmake" "--dump_driver" cpp_options); auto; try (intros; reflexivity).
  - vm_compute. discriminate.
  - intros a l u v N1 N2. cbn [cpp_options]. word. reflexivity.
Qed.
Lemma ast_given names o c d x y : behind "--with-cfg" "--with-use" names -> options "--with-cfg" "--with-use" o c d ->
  ast_options (o ++ names) x y = (x || c, y || d, names).
Proof.
  intros B O. apply (go_options "--with-cfg" "--with-use" ast_options); auto; try (intros; reflexivity).
  - vm_compute. discriminate.
  - intros a l u v N1 N2. cbn [ast_options]. word. reflexivity.
Qed.
Lemma cpp_skips l x y : exists o c d, options "--dump_cmake" "--dump_driver" o c d /\ l = o ++ snd (cpp_options l x y).
Proof.
  apply (go_skips "--dump_cmake" "--dump_driver" cpp_options); auto; try (intros; reflexivity).
  - vm_compute. discriminate.
  - intros a m u v N1 N2. cbn [cpp_options]. word. reflexivity.
Qed.
Lemma ast_skips l x y : exists o c d, options "--with-cfg" "--with-use" o c d /\ l = o ++ snd (ast_options l x y).
Proof.
  apply (go_skips "--with-cfg" "--with-use" ast_options); auto; try (intros; reflexivity).
  - vm_compute. discriminate.
  - intros a m u v N1 N2. cbn [ast_options]. word. reflexivity.
Qed.
(** Options are no request for help. *)
Lemma no_help_options w1 w2 o c d names : lit w1 <> lit "--help" -> lit w2 <> lit "--help" ->
  options w1 w2 o c d -> (o = [] -> wants_help names = false) -> wants_help (o ++ names) = false.
Proof.
  intros N1 N2 (A & _) H. destruct o as [|a o]; [apply H; reflexivity|]. cbn. destruct (A a (or_introl eq_refl)) as [-> | ->]; apply word_no; auto.
Qed.

Lemma cpp_help o c d names : options "--dump_cmake" "--dump_driver" o c d -> (o = [] -> wants_help names = false) ->
  wants_help (o ++ names) = false.
Proof. apply no_help_options; vm_compute; discriminate. Qed.
Lemma ast_help o c d names : options "--with-cfg" "--with-use" o c d -> (o = [] -> wants_help names = false) ->
  wants_help (o ++ names) = false.
Proof. apply no_help_options; vm_compute; discriminate. Qed.

Section Claims.
Context {T : Type}.
Variable debug : bool.
Variable parse_file : disk -> text -> res T.
Variable source_name : T -> text.
Variable run : disk -> T -> disk * res unit.
Variable annotate : T -> res T.
Variables (ast_graph : bool -> bool -> T -> text) (flow_graph : T -> text).
Variable interactive : disk -> disk * res unit.
Variable describe : disk -> text -> res (list output).
Variable cpp : T -> text -> option (text * text).
Variables (cmake_text : text -> bool -> text) (driver_text : text -> text).
Variables (may_write : disk -> text -> bool) (directory_writable : text -> bool).
Let fern (args : list text) (s : state T) : state T * res status :=
  main debug parse_file source_name run annotate ast_graph flow_graph interactive describe cpp cmake_text driver_text
    may_write directory_writable args s.

(** ** Words that are not understood, and requests for help *)

(** A first word that is not understood: help is shown, and then debug builds abort and what others
    do is undefined. *)
Theorem C82_unknown (a : text) (rest : list text) (s : state T) : ~ In a first_words ->
  exists s', fern (a :: rest) s = (s', if debug then Fails else Unknown) /\ out s' = out s ++ [Help General].
Proof.
  intros N. unfold fern, main.
  assert (X : forall w, In (lit w) first_words -> is_word w a = false) by (intros w I; apply word_no; intros ->; contradiction).
  rewrite !X by (cbn; auto 10). eexists. split; reflexivity.
Qed.

(** Wrong numbers of arguments, and other words that are not understood: a complaint, and the
    program fails.  No file is changed and no script is executed. *)
Theorem C82_wrong (args : list text) (s : state T) : wrong_usage args ->
  exists s' c, fern args s = (s', Returns Failure) /\ disk_of s' = disk_of s /\ executed s' = executed s /\
    err s' = err s ++ [c] /\ In c [TooMany; NotEnough; UnknownWord (nth 1 args []); UnknownWord (nth 2 args [])].
Proof.
  unfold fern. intros U. inversion U; subst; unfold main; word.
  - unfold execute, wants_help. word. do 2 eexists. repeat split. cbn. auto.
  - unfold describe_command, wants_help. word. do 2 eexists. repeat split. cbn. auto.
  - unfold import, wants_help. word. do 2 eexists. repeat split. cbn. auto.
  - unfold import, wants_help. word. do 2 eexists. repeat split. cbn. auto.
  - unfold compile_command, wants_help. word. do 2 eexists. repeat split. cbn. auto.
  - unfold compile_command, wants_help. word. unfold compile_to_dot, wants_help. word. do 2 eexists. repeat split. cbn. auto.
  - unfold compile_command, wants_help. word. unfold compile_to_cpp. rewrite <- (app_nil_r o).
    rewrite (cpp_help _ _ _ [] H0) by (intros ->; contradiction).
    rewrite (cpp_given [] _ _ _ false false Logic.I H0). do 2 eexists. repeat split. cbn. auto.
  - unfold compile_command, wants_help at 1. word. unfold compile_to_cpp.
    destruct (in_dec (list_eq_dec ascii_dec) a [lit "--dump_cmake"; lit "--dump_driver"]) as [J|J].
    + assert (O : exists c' d', options "--dump_cmake" "--dump_driver" (o ++ [a]) c' d').
      { destruct H as (A & _). exists (if in_dec (list_eq_dec ascii_dec) (lit "--dump_cmake") (o ++ [a]) then true else false).
        exists (if in_dec (list_eq_dec ascii_dec) (lit "--dump_driver") (o ++ [a]) then true else false).
        split; [|split; destruct (in_dec _ _ _); split; auto; try discriminate; contradiction].
        intros u V. apply in_app_or in V as [V|[<-|[]]]; auto. destruct J as [<-|[<-|[]]]; auto. }
      destruct O as (c' & d' & O). rewrite <- (app_nil_r (o ++ [a])).
      rewrite (cpp_help _ _ _ [] O) by (destruct o; discriminate).
      rewrite (cpp_given [] _ _ _ false false Logic.I O). do 2 eexists. repeat split. cbn. auto.
    + rewrite (cpp_help _ _ _ [a] H) by (intros _; cbn; word; reflexivity).
      rewrite (cpp_given [a] o c d false false); auto.
      * do 2 eexists. repeat split. cbn. auto.
      * cbn. split; intros ->; apply J; cbn; auto.
  - unfold compile_command, wants_help at 1. word. unfold compile_to_cpp.
    rewrite (cpp_help _ _ _ (a :: b :: e :: l) H) by (intros _; cbn; word; reflexivity).
    rewrite (cpp_given (a :: b :: e :: l) o c d false false); [|cbn; auto|auto]. do 2 eexists. repeat split. cbn. auto.
  - unfold compile_command, wants_help at 1. word. unfold compile_to_dot, wants_help at 1. word. unfold compile_to_dot_ast.
    rewrite <- (app_nil_r o).
    rewrite (ast_help _ _ _ [] H0) by (intros ->; contradiction).
    rewrite (ast_given [] _ _ _ false false Logic.I H0). do 2 eexists. repeat split. cbn. auto.
  - unfold compile_command, wants_help at 1. word. unfold compile_to_dot, wants_help at 1. word. unfold compile_to_dot_ast.
    rewrite (ast_help _ _ _ (a :: b :: e :: f :: l) H) by (intros _; cbn; word; reflexivity).
    rewrite (ast_given (a :: b :: e :: f :: l) o c u false false); [|cbn; auto|auto]. do 2 eexists. repeat split. cbn. auto.
  - unfold compile_command, wants_help at 1. word. unfold compile_to_dot, wants_help at 1. word. unfold compile_to_dot_flowgraph, wants_help. word.
    do 2 eexists. repeat split. cbn. auto.
Qed.

(** Requests for help, the version or the build: that is shown, and nothing else is done. *)
Theorem C82_question (args : list text) (s : state T) : question args ->
  exists s' o, fern args s = (s', Returns Success) /\ disk_of s' = disk_of s /\ executed s' = executed s /\
    err s' = err s /\ out s' = out s ++ [o] /\ (o = Version \/ o = Build \/ exists t, o = Help t).
Proof.
  unfold fern. intros Q. inversion Q; subst; unfold main; word.
  all: repeat match goal with H : In _ (_ :: _) |- _ => destruct H as [<-|H] | H : In _ [] |- _ => destruct H end; word.
  all: unfold compile_command, compile_to_dot, compile_to_cpp, compile_to_xml, compile_to_dot_ast, compile_to_dot_flowgraph, execute,
    describe_command, import, wants_help; word; do 2 eexists; repeat split; eauto.
Qed.

(** ** Scripts *)

(** Executing a script: it is parsed and executed, once, and the program succeeds exactly if both
    end normally.  If there is an exception the program fails, with the text of [what()]: this is
    not the message of an exception of fern. *)
Theorem C82_execute (a name : text) (s : state T) : a <> lit "--help" -> script_name a name ->
  match parse_file (disk_of s) name with
  | Returns t =>
      let (fs, r) := run (disk_of s) t in
      exists s', disk_of s' = fs /\ executed s' = executed s ++ [t] /\ out s' = out s /\
      match r with
      | Returns _ => fern [lit "execute"; a] s = (s', Returns Success) /\ err s' = err s
      | Throws e => fern [lit "execute"; a] s = (s', Returns Failure) /\
          err s' = err s ++ [Lines (match e with FernException _ => lit "std::exception" | OtherException w => w end)]
      | Fails => fern [lit "execute"; a] s = (s', Fails)
      | Unknown => fern [lit "execute"; a] s = (s', Unknown)
      end
  | Throws e => exists s', fern [lit "execute"; a] s = (s', Returns Failure) /\ disk_of s' = disk_of s /\ executed s' = executed s /\
      err s' = err s ++ [Lines (match e with FernException _ => lit "std::exception" | OtherException w => w end)]
  | Fails => fern [lit "execute"; a] s = (s, Fails)
  | Unknown => fern [lit "execute"; a] s = (s, Unknown)
  end.
Proof.
  intros N I. apply input_of in I. unfold fern, main. word. unfold execute, wants_help. word. rewrite I.
  destruct (parse_file (disk_of s) name) as [t|e| |]; cbn [bind_res guarded]; auto.
  - destruct (run (disk_of s) t) as [fs r]. destruct r as [x|e| |]; cbn [bind_res guarded];
      [eexists (State fs (out s) (err s) (executed s ++ [t]))|eexists (complain _ (State fs (out s) (err s) (executed s ++ [t])))
      |eexists (State fs (out s) (err s) (executed s ++ [t]))|eexists (State fs (out s) (err s) (executed s ++ [t]))]; repeat split.
  - eexists. repeat split.
Qed.

(** Scripts are executed only by [fern execute SCRIPT], and in the interactive interpreter. *)
Theorem C82_only_executed (args : list text) (s s' : state T) (r : res status) : fern args s = (s', r) ->
  executed s' = executed s \/
  exists a name t, args = [lit "execute"; a] /\ script_name a name /\ parse_file (disk_of s) name = Returns t /\
    executed s' = executed s ++ [t].
Proof.
  intros H. assert (W : forall x y (z : state T), executed (write may_write x y z) = executed z).
  { intros x y z. unfold write. destruct y; [reflexivity|]. destruct (may_write _ _); reflexivity. }
  assert (GG : forall g l (z z' : state T) q, compile_to_graph parse_file annotate may_write g l z = (z', q) -> executed z' = executed z).
  { intros g l z z' q. unfold compile_to_graph. destruct l as [|i l]; [intros [= <- <-]; reflexivity|].
    destruct (Nat.ltb _ _); [intros [= <- <-]; reflexivity|]. destruct (parse_file _ _) as [t|e| |]; cbn [bind_res]; try (intros [= <- <-]; reflexivity).
    destruct (annotate t); cbn [bind_res]; intros [= <- <-]; auto. }
  assert (WF : forall x y (z z' : state T) q, write_file debug may_write x y z = (z', q) -> executed z' = executed z).
  { intros x y z z' q. unfold write_file. destruct (may_write _ _); [intros [= <- <-]; reflexivity|]. destruct debug; intros [= <- <-]; reflexivity. }
  assert (SQ : forall A (p : state T * res unit) (k : state T -> state T * res A) z z' q, executed (fst p) = executed z ->
     (forall y y' q', k y = (y', q') -> executed y' = executed y) -> seq_res p k = (z', q) -> executed z' = executed z).
  { intros A [p [u|e| |]] k z z' q E K; cbn [seq_res fst] in *; try (intros [= <- <-]; exact E). intros Hk. rewrite (K _ _ _ Hk). exact E. }
  assert (CF : forall i d c e (z z' : state T) q, compile_files debug parse_file source_name cpp cmake_text driver_text may_write directory_writable i d c e z = (z', q) ->
     executed z' = executed z).
  { intros i d c e z z' q. unfold compile_files. destruct (parse_file _ _) as [t|x| |]; cbn [bind_res]; try (intros [= <- <-]; reflexivity).
    destruct (debug && _); [intros [= <- <-]; reflexivity|]. destruct (cpp _ _) as [[h m]|]; [|intros [= <- <-]; reflexivity].
    apply SQ.
    { destruct (write_file _ _ h _ z) as [y q'] eqn:Y. exact (WF _ _ _ _ _ Y). }
    intros y y' q'. apply SQ.
    { destruct (write_file _ _ m _ y) as [y2 q2] eqn:Y. exact (WF _ _ _ _ _ Y). }
    intros y2 y2' q2. apply SQ.
    { destruct c; [|reflexivity]. destruct (write_file _ _ _ _ y2) as [y3 q3] eqn:Y. exact (WF _ _ _ _ _ Y). }
    intros y3 y3' q3. destruct e; [apply WF|intros [= <- <-]; reflexivity]. }
  unfold fern, main in H. destruct args as [|a args].
  - left. destruct (interactive (disk_of s)) as [fs [x|e| |]]; cbn in H; injection H as <- <-; reflexivity.
  - destruct (is_word "--help" a); [injection H as <- <-; auto|]. destruct (is_word "--version" a); [injection H as <- <-; auto|].
    destruct (is_word "--build" a); [injection H as <- <-; auto|].
    assert (GU : forall (p : state T * res status), guarded p = (s', r) -> executed s' = executed (fst p)).
    { intros [z [x|e| |]]; cbn; intros [= <- <-]; reflexivity. }
    destruct (is_word "compile" a).
    { left. rewrite (GU _ H). clear H GU. unfold compile_command.
      match goal with |- context [let (s0, r0) := ?p in _] => assert (E : executed (fst p) = executed s); [|destruct p as [z [x|[?|?]| |]]; exact E] end.
      destruct (wants_help args); [reflexivity|]. destruct args as [|b args]; [reflexivity|].
      destruct (is_word "fern" b); [reflexivity|]. destruct (is_word "dot" b).
      { unfold compile_to_dot. destruct (wants_help args); [reflexivity|]. destruct args as [|d args]; [reflexivity|].
        destruct (is_word "ast" d).
        { unfold compile_to_dot_ast. destruct (wants_help args); [reflexivity|]. destruct (ast_options args false false) as [[x y] l].
          destruct (compile_to_graph _ _ _ _ _ _) as [z q] eqn:E. exact (GG _ _ _ _ _ E). }
        destruct (is_word "flowgraph" d); [|reflexivity]. unfold compile_to_dot_flowgraph. destruct (wants_help args); [reflexivity|].
        destruct (compile_to_graph _ _ _ _ _ _) as [z q] eqn:E. exact (GG _ _ _ _ _ E). }
      destruct (is_word "c++" b).
      { unfold compile_to_cpp. destruct (wants_help args); [reflexivity|]. destruct (cpp_options args false false) as [[x y] [|i [|d [|? ?]]]]; try reflexivity.
        match goal with |- context [seq_res ?p ?k] => destruct (seq_res p k) as [z q] eqn:E; apply SQ with (z := s) in E end.
        - exact E.
        - destruct (compile_files _ _ _ _ _ _ _ _ _ _ _ _ _) as [z2 q2] eqn:Y. exact (CF _ _ _ _ _ _ _ Y).
        - intros y0 y' q' [= <- <-]. reflexivity. }
      destruct (is_word "python" b); [reflexivity|]. destruct (is_word "xml" b); [|reflexivity]. unfold compile_to_xml.
      destruct (wants_help args); [reflexivity|]. destruct (Nat.ltb _ _); reflexivity. }
    destruct (is_word "describe" a).
    { left. rewrite (GU _ H). unfold describe_command. destruct (wants_help args); [reflexivity|]. destruct args as [|b [|? ?]]; try reflexivity.
      destruct (describe _ b) as [l|e| |]; try reflexivity. cbn [bind_res fst]. clear. revert s. induction l as [|x l IH]; intros s; auto. cbn. rewrite IH. reflexivity. }
    destruct (is_word "execute" a) eqn:E.
    { apply word_iff in E. subst a. unfold execute in H. destruct (wants_help args); [injection H as <- <-; auto|].
      destruct args as [|b [|? ?]]; try (injection H as <- <-; auto). destruct (parse_file (disk_of s) (input_name b)) as [t|e| |] eqn:P.
      2-4: injection H as <- <-; auto.
      right. exists b, (input_name b), t. repeat split; auto. { apply input_is. }
      cbn [bind_res] in H. destruct (run (disk_of s) t) as [fs [x|e| |]]; cbn in H; injection H as <- <-; reflexivity. }
    left. destruct (is_word "import" a); [|injection H as <- <-; reflexivity].
    rewrite (GU _ H). unfold import. destruct (wants_help args); [reflexivity|]. destruct args as [|? [|? [|? ?]]]; reflexivity.
Qed.

(** ** Files that are written *)

Lemma write_frame (t n m : text) (s : state T) : n <> m -> disk_of (write may_write t m s) n = disk_of s n.
Proof. intros D. unfold write. destruct m; [reflexivity|]. destruct (may_write _ _); cbn; auto using put_other. Qed.
Lemma write_file_frame (t n m : text) (s s' : state T) r : n <> m -> write_file debug may_write t m s = (s', r) -> disk_of s' n = disk_of s n.
Proof.
  intros D. unfold write_file. destruct (may_write _ _); [intros [= <- <-]; cbn; auto using put_other|]. destruct debug; intros [= <- <-]; reflexivity.
Qed.
Lemma seq_frame A (p : state T * res unit) (k : state T -> state T * res A) n (s s' : state T) r : disk_of (fst p) n = disk_of s n ->
  (forall y y' q, k y = (y', q) -> disk_of y' n = disk_of y n) -> seq_res p k = (s', r) -> disk_of s' n = disk_of s n.
Proof.
  destruct p as [p [u|e| |]]; cbn [seq_res fst]; intros E K; try (intros [= <- <-]; exact E). intros Hk. rewrite (K _ _ _ Hk). exact E.
Qed.
Lemma graph_frame g l n (s s' : state T) r : (forall i, l <> [i; n]) ->
  compile_to_graph parse_file annotate may_write g l s = (s', r) -> disk_of s' n = disk_of s n.
Proof.
  intros N. unfold compile_to_graph. destruct l as [|i l]; [intros [= <- <-]; reflexivity|].
  destruct (Nat.ltb _ _); [intros [= <- <-]; reflexivity|]. destruct (parse_file _ _) as [t|e| |]; cbn [bind_res]; try (intros [= <- <-]; reflexivity).
  destruct (annotate t) as [u|e| |]; cbn [bind_res]; try (intros [= <- <-]; reflexivity).
  destruct l as [|o [|? ?]]; try (intros [= <- <-]; reflexivity). intros [= <- <-]. apply write_frame. intros ->. exact (N i eq_refl).
Qed.
Lemma join_file d n : join_path d n = file_in d n.
Proof.
  unfold join_path, file_in. destruct d as [|a d]; [reflexivity|]. replace (same_text (a :: d) []) with false by reflexivity.
  rewrite orb_false_r. unfold ends_with. destruct (exists_last (l := a :: d)) as (b & c & E); [discriminate|].
  rewrite E, last_last, rev_app_distr. change (rev (lit "/")) with ["/"%char]. cbn [rev app starts_with].
  replace (starts_with (rev b) []) with true by (destruct (rev b); reflexivity). rewrite andb_true_r, (Ascii.eqb_sym "/" c).
  destruct (Ascii.eqb c "/"); rewrite <- !app_assoc; reflexivity.
Qed.

Lemma files_frame i d c e n (s s' : state T) r :
  (forall name, ~ In n [join_path d (name ++ lit ".h"); join_path d (name ++ lit ".cc"); join_path d (lit "CMakeLists.txt"); join_path d (lit "main.cc")]) ->
  compile_files debug parse_file source_name cpp cmake_text driver_text may_write directory_writable i d c e s = (s', r) ->
  disk_of s' n = disk_of s n.
Proof.
  intros N. unfold compile_files. destruct (parse_file _ _) as [t|x| |]; cbn [bind_res]; try (intros [= <- <-]; reflexivity).
  specialize (N (stem (filename (source_name t)))).
  destruct (debug && _); [intros [= <- <-]; reflexivity|]. destruct (cpp _ _) as [[h m]|]; [|intros [= <- <-]; reflexivity].
  apply seq_frame.
  { destruct (write_file _ _ h _ s) as [y q'] eqn:Y. apply write_file_frame with (n := n) in Y; auto. intros ->. apply N. cbn. auto. }
  intros y y' q'. apply seq_frame.
  { destruct (write_file _ _ m _ y) as [y2 q2] eqn:Y. apply write_file_frame with (n := n) in Y; auto. intros ->. apply N. cbn. auto. }
  intros y2 y2' q2. apply seq_frame.
  { destruct c; [|reflexivity]. destruct (write_file _ _ _ _ y2) as [y3 q3] eqn:Y. apply write_file_frame with (n := n) in Y; auto. intros ->. apply N. cbn. auto. }
  intros y3 y3' q3. destruct e; [|intros [= <- <-]; reflexivity]. apply write_file_frame. intros ->. apply N. cbn. auto.
Qed.

(** Other files than those the command line names for writing are not changed, unless a script is
    executed or the interactive interpreter is used. *)
Theorem C82_frame (args : list text) (s s' : state T) (r : res status) (n : text) : fern args s = (s', r) ->
  args <> [] -> (forall a, args <> [lit "execute"; a]) -> ~ named_for_writing args n -> disk_of s' n = disk_of s n.
Proof.
  intros H NE NX NW. unfold fern, main in H. destruct args as [|a args]; [contradiction|]. clear NE.
  destruct (is_word "--help" a); [injection H as <- <-; auto|]. destruct (is_word "--version" a); [injection H as <- <-; auto|].
  destruct (is_word "--build" a); [injection H as <- <-; auto|].
  assert (GU : forall (p : state T * res status), guarded p = (s', r) -> disk_of s' = disk_of (fst p)).
  { intros [z [x|e| |]]; cbn; intros [= <- <-]; reflexivity. }
  destruct (is_word "compile" a) eqn:E0.
  { apply word_iff in E0. subst a. rewrite (GU _ H). clear H GU. unfold compile_command.
    match goal with |- context [let (s0, r0) := ?p in _] => assert (E : disk_of (fst p) n = disk_of s n); [|destruct p as [z [x|[?|?]| |]]; exact E] end.
    destruct (wants_help args); [reflexivity|]. destruct args as [|b args]; [reflexivity|].
    destruct (is_word "fern" b); [reflexivity|]. destruct (is_word "dot" b) eqn:E1.
    { apply word_iff in E1. subst b. unfold compile_to_dot. destruct (wants_help args); [reflexivity|]. destruct args as [|d args]; [reflexivity|].
      destruct (is_word "ast" d) eqn:E2.
      { apply word_iff in E2. subst d. unfold compile_to_dot_ast. destruct (wants_help args); [reflexivity|].
        destruct (ast_skips args false false) as (o & c & u & _ & SK).
        destruct (ast_options args false false) as [[x y] l].
        destruct (compile_to_graph _ _ _ _ _ _) as [z q] eqn:E. apply graph_frame with (n := n) in E; auto.
        intros i ->. apply NW. left. exists (lit "ast"), o, i. cbn [snd] in SK. rewrite <- SK. split; auto. cbn. auto. }
      destruct (is_word "flowgraph" d) eqn:E3; [|reflexivity]. apply word_iff in E3. subst d.
      unfold compile_to_dot_flowgraph. destruct (wants_help args); [reflexivity|].
      destruct (compile_to_graph _ _ _ _ _ _) as [z q] eqn:E. apply graph_frame with (n := n) in E; auto.
      intros i ->. apply NW. left. exists (lit "flowgraph"), [], i. split; auto. cbn. auto. }
    destruct (is_word "c++" b) eqn:E4.
    { apply word_iff in E4. subst b. unfold compile_to_cpp. destruct (wants_help args); [reflexivity|].
      destruct (cpp_skips args false false) as (o & c & u & _ & SK).
      destruct (cpp_options args false false) as [[x y] [|i [|d [|? ?]]]]; try reflexivity. cbn [snd] in SK.
      match goal with |- context [seq_res ?p ?k] => destruct (seq_res p k) as [z q] eqn:E; apply seq_frame with (s := s) (n := n) in E end.
      - exact E.
      - destruct (compile_files _ _ _ _ _ _ _ _ _ _ _ _ _) as [z2 q2] eqn:Y. apply files_frame with (n := n) in Y; auto.
        intros name I. rewrite !join_file in I. apply NW. right. exists o, i, d, name. rewrite <- SK. auto.
      - intros y0 y' q' [= <- <-]. reflexivity. }
    destruct (is_word "python" b); [reflexivity|]. destruct (is_word "xml" b); [|reflexivity]. unfold compile_to_xml.
    destruct (wants_help args); [reflexivity|]. destruct (Nat.ltb _ _); reflexivity. }
  destruct (is_word "describe" a).
  { rewrite (GU _ H). unfold describe_command. destruct (wants_help args); [reflexivity|]. destruct args as [|b [|? ?]]; try reflexivity.
    destruct (describe _ b) as [l|e| |]; try reflexivity. cbn [bind_res fst]. clear. revert s. induction l as [|x l IH]; intros s; auto. cbn. rewrite IH. reflexivity. }
  destruct (is_word "execute" a) eqn:E.
  { apply word_iff in E. subst a. unfold execute in H. destruct (wants_help args); [injection H as <- <-; auto|].
    destruct args as [|b [|? ?]]; try (injection H as <- <-; auto). exfalso. exact (NX b eq_refl). }
  destruct (is_word "import" a); [|injection H as <- <-; reflexivity].
  rewrite (GU _ H). unfold import. destruct (wants_help args); [reflexivity|]. destruct args as [|? [|? [|? ?]]]; reflexivity.
Qed.

(** Graphs: the graph of the script is printed, or written to the file that is named if that is
    possible.  With two names behind that of the script it is printed as well.  If there is an
    exception its message is printed. *)
Theorem C82_graph (words : list text) (graph : T -> text) (input name : text) (names : list text) (s : state T) :
  graph_words ast_graph flow_graph words graph -> ~ In input [lit "--help"; lit "--with-cfg"; lit "--with-use"] ->
  script_name input name -> (length names <= 2)%nat ->
  let args := lit "compile" :: lit "dot" :: words ++ input :: names in
  match match parse_file (disk_of s) name with Returns t => annotate t | r => r end with
  | Returns t => exists s', fern args s = (s', Returns Success) /\ executed s' = executed s /\ err s' = err s /\
      match names with
      | [(_ :: _) as o] => out s' = out s /\ disk_of s' o = (if may_write (disk_of s) o then Some (graph t) else disk_of s o) /\
          forall n, n <> o -> disk_of s' n = disk_of s n
      | _ => out s' = out s ++ [Lines (graph t)] /\ disk_of s' = disk_of s
      end
  | Throws e => exists s', fern args s = (s', Returns Failure) /\ disk_of s' = disk_of s /\ executed s' = executed s /\
      out s' = out s /\ err s' = err s ++ [Lines (message_of e)]
  | Fails => fern args s = (s, Fails)
  | Unknown => fern args s = (s, Unknown)
  end.
Proof.
  intros G N I L args. apply input_of in I.
  assert (E : fern args s = guarded (let (s, r) := compile_to_graph parse_file annotate may_write graph (input :: names) s in
     match r with Throws (FernException m) => (complain (Lines m) s, Returns Failure)
     | Throws e => (complain (Lines (what_of e)) s, Returns Failure) | _ => (s, r) end)).
  { assert (H1 : input <> lit "--help") by (intros ->; apply N; cbn; auto).
    assert (H2 : input <> lit "--with-cfg") by (intros ->; apply N; cbn; auto).
    assert (H3 : input <> lit "--with-use") by (intros ->; apply N; cbn; auto).
    unfold fern, args, main. word. unfold compile_command, wants_help at 1. word. unfold compile_to_dot.
    destruct G as [o c u O|]; cbn [app]; unfold wants_help at 1; word.
    - unfold compile_to_dot_ast. rewrite (ast_help _ _ _ _ O) by (intros _; cbn; word; reflexivity).
      rewrite (ast_given (input :: names) o c u false false) by (cbn; auto). reflexivity.
    - unfold compile_to_dot_flowgraph, wants_help. word. reflexivity. }
  rewrite E. clear E args G N. unfold compile_to_graph.
  replace (Nat.ltb 3 (length (input :: names))) with false.
  2:{ symmetry. apply Nat.ltb_ge. cbn [length]. apply le_n_S. exact L. }
  rewrite I. destruct (parse_file (disk_of s) name) as [t|e| |]; cbn [bind_res guarded]; auto.
  2:{ destruct e; eexists; repeat split. }
  destruct (annotate t) as [u|e| |]; cbn [bind_res guarded]; auto.
  2:{ destruct e; eexists; repeat split. }
  eexists. split; [reflexivity|].
  destruct names as [|o [|? ?]]; [repeat split| |destruct o; repeat split].
  destruct o as [|x o]; [repeat split|]. unfold write. destruct (may_write _ _) eqn:M; cbn [with_disk disk_of out]; repeat split.
  - apply put_same.
  - intros n D. apply put_other. exact D.
Qed.

Lemma join_injective d x y : join_path d x = join_path d y -> x = y.
Proof.
  unfold join_path. destruct d as [|a d]; auto. destruct (Ascii.eqb _ _); intros E; apply app_inv_head in E; congruence.
Qed.

(** C++: the header and the module are written to the directory, and the other files if they are
    asked for; no other file is.  A module with the name [main] is overwritten by the driver. *)
Lemma cpp_files (o : list text) (cmake driver : bool) (input name directory : text) (s : state T) (t : T) (h m : text) :
  options "--dump_cmake" "--dump_driver" o cmake driver -> ~ In input [lit "--help"; lit "--dump_cmake"; lit "--dump_driver"] ->
  script_name input name -> parse_file (disk_of s) name = Returns t ->
  let model := stem (filename (source_name t)) in
  cpp t (model ++ lit ".h") = Some (h, m) ->
  directory_writable directory = true -> directory_writable (parent_path directory) = true ->
  (forall fs f, may_write fs (join_path directory f) = true) ->
  exists s', fern (lit "compile" :: lit "c++" :: o ++ [input; directory]) s = (s', Returns Success) /\
    executed s' = executed s /\ out s' = out s /\ err s' = err s /\
    disk_of s' (join_path directory (model ++ lit ".h")) = Some h /\
    disk_of s' (join_path directory (model ++ lit ".cc")) =
      Some (if driver && same_text model (lit "main") then driver_text model else m) /\
    (cmake = true -> disk_of s' (join_path directory (lit "CMakeLists.txt")) = Some (cmake_text model driver)) /\
    (driver = true -> disk_of s' (join_path directory (lit "main.cc")) = Some (driver_text model)) /\
    (forall n, n <> join_path directory (model ++ lit ".h") -> n <> join_path directory (model ++ lit ".cc") ->
       (cmake = true -> n <> join_path directory (lit "CMakeLists.txt")) -> (driver = true -> n <> join_path directory (lit "main.cc")) ->
       disk_of s' n = disk_of s n).
Proof.
  intros O N I P model C D1 D2 MW. apply input_of in I.
  assert (E : fern (lit "compile" :: lit "c++" :: o ++ [input; directory]) s = guarded (let (s, r) :=
      seq_res (compile_files debug parse_file source_name cpp cmake_text driver_text may_write directory_writable name directory cmake driver s)
        (fun s => (s, Returns Success)) in
     match r with Throws (FernException m) => (complain (Lines m) s, Returns Failure)
     | Throws e => (complain (Lines (what_of e)) s, Returns Failure) | _ => (s, r) end)).
  { assert (H1 : input <> lit "--help") by (intros ->; apply N; cbn; auto).
    assert (H2 : input <> lit "--dump_cmake") by (intros ->; apply N; cbn; auto).
    assert (H3 : input <> lit "--dump_driver") by (intros ->; apply N; cbn; auto).
    unfold fern, main. word. unfold compile_command, wants_help at 1. word. unfold compile_to_cpp.
    rewrite (cpp_help _ _ _ _ O) by (intros _; cbn; word; reflexivity).
    rewrite (cpp_given [input; directory] o cmake driver false false) by (cbn; auto). rewrite I. reflexivity. }
  rewrite E. clear E. unfold compile_files. rewrite P. cbn [bind_res]. fold model. rewrite C.
  assert (WR : forall f, writable may_write directory_writable s directory (join_path directory f) = true).
  { intros f. unfold writable. destruct (disk_of s _); auto. }
  rewrite D1, !WR. cbn [andb negb]. rewrite andb_false_r.
  assert (WF : forall x f (y : state T), write_file debug may_write x (join_path directory f) y =
    (with_disk (put (disk_of y) (join_path directory f) x) y, Returns tt)) by (intros; unfold write_file; rewrite MW; reflexivity).
  rewrite WF. cbn [seq_res]. rewrite WF. cbn [seq_res].
  assert (HM : model ++ lit ".h" <> model ++ lit ".cc") by (intros Q; apply app_inv_head in Q; discriminate).
  assert (R : forall x y : text, rev x <> rev y -> x <> y) by congruence.
  assert (HC : lit "CMakeLists.txt" <> model ++ lit ".h") by (apply R; rewrite rev_app_distr; cbn; discriminate).
  assert (HD : lit "main.cc" <> model ++ lit ".h") by (apply R; rewrite rev_app_distr; cbn; discriminate).
  assert (MC : lit "CMakeLists.txt" <> model ++ lit ".cc") by (apply R; rewrite rev_app_distr; cbn; discriminate).
  assert (CM : lit "CMakeLists.txt" <> lit "main.cc") by (vm_compute; discriminate).
  assert (J : forall x y, x <> y -> join_path directory x <> join_path directory y) by (intros x y Q1 Q2; apply join_injective in Q2; contradiction).
  assert (MM : same_text model (lit "main") = true -> model ++ lit ".cc" = lit "main.cc").
  { unfold same_text. destruct (list_eq_dec ascii_dec model (lit "main")) as [-> |]; [reflexivity|discriminate]. }
  assert (MN : same_text model (lit "main") = false -> model ++ lit ".cc" <> lit "main.cc").
  { unfold same_text. destruct (list_eq_dec ascii_dec model (lit "main")) as [|Q]; [discriminate|]. intros _ Q2. apply Q.
    change (lit "main.cc") with (lit "main" ++ lit ".cc") in Q2. apply app_inv_tail in Q2. exact Q2. }
  set (fs1 := put (put (disk_of s) (join_path directory (model ++ lit ".h")) h) (join_path directory (model ++ lit ".cc")) m).
  destruct cmake, driver; rewrite ?WF; cbn [seq_res guarded]; rewrite ?WF; cbn [seq_res guarded]; eexists; (split; [reflexivity|]); do 3 (split; [reflexivity|]);
    cbn [with_disk disk_of andb]; fold fs1;
    (split; [rewrite ?put_other by (apply J; congruence); unfold fs1; rewrite put_other by (apply J; auto); apply put_same|]);
    (split; [|split; [|split]]); try discriminate.
  all: try (intros _; rewrite ?put_other by (apply J; auto); apply put_same).
  all: try (intros n N1 N2 N3 N4; rewrite ?put_other by auto; unfold fs1; rewrite !put_other by auto; reflexivity).
  all: try (rewrite ?put_other by (apply J; auto); apply put_same).
  all: destruct (same_text model (lit "main")) eqn:SM; [rewrite (MM eq_refl); apply put_same|].
  all: rewrite ?put_other by (apply J; auto); apply put_same.
Qed.
Theorem C82_cpp (o : list text) (cmake driver : bool) (input name directory : text) (s : state T) (t : T) (h m : text) :
  options "--dump_cmake" "--dump_driver" o cmake driver -> ~ In input [lit "--help"; lit "--dump_cmake"; lit "--dump_driver"] ->
  script_name input name -> parse_file (disk_of s) name = Returns t ->
  let model := stem (filename (source_name t)) in
  cpp t (model ++ lit ".h") = Some (h, m) ->
  directory_writable directory = true -> directory_writable (parent_path directory) = true ->
  (forall fs f, may_write fs (file_in directory f) = true) ->
  exists s', fern (lit "compile" :: lit "c++" :: o ++ [input; directory]) s = (s', Returns Success) /\
    executed s' = executed s /\ out s' = out s /\ err s' = err s /\
    disk_of s' (file_in directory (model ++ lit ".h")) = Some h /\
    disk_of s' (file_in directory (model ++ lit ".cc")) =
      Some (if driver && same_text model (lit "main") then driver_text model else m) /\
    (cmake = true -> disk_of s' (file_in directory (lit "CMakeLists.txt")) = Some (cmake_text model driver)) /\
    (driver = true -> disk_of s' (file_in directory (lit "main.cc")) = Some (driver_text model)) /\
    (forall n, n <> file_in directory (model ++ lit ".h") -> n <> file_in directory (model ++ lit ".cc") ->
       (cmake = true -> n <> file_in directory (lit "CMakeLists.txt")) -> (driver = true -> n <> file_in directory (lit "main.cc")) ->
       disk_of s' n = disk_of s n).
Proof.
  intros O N I P model C D1 D2 MW.
  destruct (cpp_files o cmake driver input name directory s t h m O N I P C D1 D2) as (s' & E & X & Y & Z & H & M & K & D & F).
  { intros fs f. rewrite join_file. apply MW. }
  exists s'. rewrite <- !join_file. repeat (split; [assumption|]). exact F.
Qed.
End Claims.
Print Assumptions C82_unknown.
Print Assumptions C82_wrong.
Print Assumptions C82_question.
Print Assumptions C82_execute.
Print Assumptions C82_only_executed.
Print Assumptions C82_frame.
Print Assumptions C82_graph.
Print Assumptions C82_cpp.

(** ** A world *)

(** Scripts are their texts; one is on the disk. *)
Definition world : disk := fun n => if same_text n (lit "models/flow.ran") then Some (lit "a = b") else
  if same_text n (lit "main.ran") then Some (lit "c = d") else None.
Definition start : state (text * text) := State world [] [] [].
Definition read_script (fs : disk) (n : text) : res (text * text) :=
  match fs n with Some t => Returns (n, t) | None => Throws (FernException (lit "no such file")) end.
Definition tool (debug : bool) (may_write : disk -> text -> bool) (directory_writable : text -> bool) : list text -> state (text * text) -> state (text * text) * res status :=
  main debug read_script fst (fun fs t => (put fs (lit "result") (snd t), Returns tt)) (fun t => Returns t)
    (fun c u t => lit (if c then "cfg:" else "") ++ lit (if u then "use:" else "") ++ snd t) snd (fun fs => (fs, Returns tt))
    (fun fs n => Returns []) (fun t h => Some (lit "header", lit "include " ++ h)) (fun n d => lit "cmake " ++ n) (fun n => lit "driver " ++ n)
    may_write directory_writable.
Definition permissive := tool true (fun _ _ => true) (fun _ => true).

(** What should not be: data is not imported and scripts are not compiled to some languages, nor
    are graphs and C++ written that cannot be, but the program succeeds; so it does with three
    names, the last two of which are ignored; the module main is overwritten by the driver; messages
    of exceptions are lost when executing; an unknown word is undefined; and the directory above
    that for C++ must be writable. *)
Theorem C82_refuted :
  (forall debug mw dw a b, a <> lit "--help" -> tool debug mw dw [lit "import"; a; b] start = (start, Returns Success)) /\
  (forall debug mw dw w l, In w [lit "fern"; lit "python"] ->
     tool debug mw dw (lit "compile" :: w :: l) start = (say NotSupported start, Returns Success)) /\
  tool true (fun _ _ => false) (fun _ => true) [lit "compile"; lit "dot"; lit "flowgraph"; lit "models/flow.ran"; lit "graph.dot"] start =
    (start, Returns Success) /\
  tool false (fun _ _ => false) (fun _ => false) [lit "compile"; lit "c++"; lit "models/flow.ran"; lit "directory"] start = (start, Returns Success) /\
  permissive [lit "compile"; lit "dot"; lit "flowgraph"; lit "models/flow.ran"; lit "graph.dot"; lit "more.dot"] start =
    (say (Lines (lit "a = b")) start, Returns Success) /\
  disk_of (fst (permissive [lit "compile"; lit "c++"; lit "--dump_driver"; lit "main.ran"; lit "."] start)) (lit "./main.cc") =
    Some (lit "driver main") /\
  permissive [lit "execute"; lit "absent"] start = (complain (Lines (lit "std::exception")) start, Returns Failure) /\
  permissive [lit "compile"; lit "dot"; lit "flowgraph"; lit "absent"] start = (complain (Lines (lit "no such file")) start, Returns Failure) /\
  tool false (fun _ _ => true) (fun _ => true) [lit "help"] start = (say (Help General) start, Unknown) /\
  tool true (fun _ _ => true) (fun d => same_text d (lit "a/b")) [lit "compile"; lit "c++"; lit "models/flow.ran"; lit "a/b"] start =
    (start, Fails).
Proof.
  repeat split; try reflexivity.
  - intros debug mw dw a b N. unfold tool, main. word. unfold import, wants_help. word. reflexivity.
  - intros debug mw dw w l [<-|[<-|[]]]; reflexivity.
Qed.
Print Assumptions C82_refuted.

Example C82_execute_case :
  let (s, r) := permissive [lit "execute"; lit "models/flow.ran"] start in
  r = Returns Success /\ executed s = [(lit "models/flow.ran", lit "a = b")] /\ disk_of s (lit "result") = Some (lit "a = b") /\
  lit "models/flow.ran" <> lit "--help" /\ script_name (lit "models/flow.ran") (lit "models/flow.ran") /\ script_name (lit "-") [].
Proof.
  repeat split; try (vm_compute; reflexivity); try (vm_compute; discriminate); [right|left]; split; auto. vm_compute. discriminate.
Qed.
Lemma both_options : options "--dump_cmake" "--dump_driver" [lit "--dump_driver"; lit "--dump_cmake"; lit "--dump_driver"] true true.
Proof.
  split; [|split; split; cbn; auto].
  intros a [<-|[<-|[<-|[]]]]; auto.
Qed.
Example C82_wrong_case :
  wrong_usage [lit "execute"; lit "a"; lit "b"] /\ wrong_usage [lit "compile"; lit "cpp"; lit "a"; lit "b"] /\
  wrong_usage [lit "compile"; lit "c++"; lit "--dump_driver"; lit "--dump_cmake"; lit "--dump_driver"; lit "a"] /\
  err (fst (permissive [lit "compile"; lit "cpp"; lit "a"; lit "b"] start)) = [UnknownWord (lit "cpp")] /\
  question [lit "compile"; lit "dot"; lit "ast"; lit "--help"] /\ ~ In (lit "help") first_words.
Proof.
  split; [apply Execute_many; vm_compute; discriminate|].
  split; [apply Compile_unknown; vm_compute; discriminate|].
  split; [exact (Cpp_one _ true true (lit "a") both_options ltac:(vm_compute; discriminate))|].
  split; [vm_compute; reflexivity|]. split; [apply Graph_help; cbn; auto|].
  vm_compute. intuition discriminate.
Qed.
Example C82_cpp_case :
  let (s, r) := permissive [lit "compile"; lit "c++"; lit "--dump_driver"; lit "--dump_cmake"; lit "--dump_driver"; lit "models/flow.ran"; lit "to"] start in
  options "--dump_cmake" "--dump_driver" [lit "--dump_driver"; lit "--dump_cmake"; lit "--dump_driver"] true true /\
  r = Returns Success /\ disk_of s (lit "to/flow.h") = Some (lit "header") /\ disk_of s (lit "to/flow.cc") = Some (lit "include flow.h") /\
  disk_of s (lit "to/CMakeLists.txt") = Some (lit "cmake flow") /\ disk_of s (lit "to/main.cc") = Some (lit "driver flow") /\
  disk_of s (lit "models/flow.ran") = Some (lit "a = b").
Proof. split; [exact both_options|]. repeat split; vm_compute; reflexivity. Qed.
Example C82_graph_case :
  let args := [lit "compile"; lit "dot"; lit "ast"; lit "--with-use"; lit "models/flow.ran"; lit "graph.dot"] in
  let (s, r) := permissive args start in
  r = Returns Success /\ disk_of s (lit "graph.dot") = Some (lit "use:a = b") /\ disk_of s (lit "main.ran") = Some (lit "c = d") /\
  named_for_writing args (lit "graph.dot") /\ ~ named_for_writing args (lit "main.ran").
Proof.
  repeat split; try (vm_compute; reflexivity).
  - left. exists (lit "ast"), [lit "--with-use"], (lit "models/flow.ran"). split; [cbn; auto|reflexivity].
  - intros [(k & o & i & _ & E)|(o & i & d & n & E & _)]; [|vm_compute in E; discriminate].
    assert (X : last [lit "compile"; lit "dot"; lit "ast"; lit "--with-use"; lit "models/flow.ran"; lit "graph.dot"] [] =
                last (lit "compile" :: lit "dot" :: k :: o ++ [i; lit "main.ran"]) []) by (rewrite E; reflexivity).
    change (lit "compile" :: lit "dot" :: k :: o ++ [i; lit "main.ran"]) with ((lit "compile" :: lit "dot" :: k :: o) ++ [i; lit "main.ran"]) in X.
    replace [i; lit "main.ran"] with ([i] ++ [lit "main.ran"]) in X by reflexivity. rewrite app_assoc, last_last in X. vm_compute in X. discriminate.
Qed.
