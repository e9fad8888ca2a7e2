(** * Proofs about reading numbers from NetCDF files *)
From Coq Require Import String Ascii ZArith List Bool Arith Lia.
From Verif Require Import StringModel StringSpec StringProofs StringProps CoardsModel CoardsSpec.
From Verif Require MessageModel MessageSpec MessageProps.
Import ListNotations.

Lemma lookup_has {A} (l : list (text * A)) name a : lookup l name = Some a <-> has l name a.
Proof.
  unfold lookup. induction l as [|[n x] l IH].
  - cbn. split; [discriminate|]. intros (b & f & E & _). destruct b; discriminate.
  - cbn [find fst]. destruct (same_text n name) as [->|N].
    + cbn. split.
      * intros [= ->]. exists [], l. split; [reflexivity|intros []].
      * intros (b & f & E & H). destruct b as [|[m y] b]; cbn in E.
        -- injection E as -> _. reflexivity.
        -- injection E as -> -> _. exfalso. apply H. left. reflexivity.
    + rewrite IH. split.
      * intros (b & f & E & H). exists ((n, x) :: b), f. split; [cbn; rewrite E; reflexivity|].
        intros [H'|H']; [exact (N H')|exact (H H')].
      * intros (b & f & E & H). destruct b as [|[m y] b]; cbn in E.
        -- injection E as H1 _ _. congruence.
        -- injection E as -> -> E. exists b, f. split; [exact E|]. intros H'. apply H. right. exact H'.
Qed.
Lemma lookup_lacks {A} (l : list (text * A)) name : lookup l name = None <-> lacks l name.
Proof.
  unfold lookup, lacks. induction l as [|[n x] l IH].
  - cbn. tauto.
  - cbn [find fst map In]. destruct (same_text n name) as [->|N]; cbn.
    + split; [discriminate|]. intros H. exfalso. apply H. left. reflexivity.
    + rewrite IH. split; [intros H [E|E]; [exact (N E)|exact (H E)]|tauto].
Qed.
Lemma has_unique {A} (l : list (text * A)) name a b : has l name a -> has l name b -> a = b.
Proof. rewrite <- !lookup_has. congruence. Qed.
Lemma has_lacks {A} (l : list (text * A)) name a : has l name a -> lacks l name -> False.
Proof. rewrite <- lookup_has, <- lookup_lacks. congruence. Qed.

Lemma contains_comma t : contains t (lit ",") = true <-> In comma t.
Proof.
  rewrite contains_spec. split.
  - intros (b & r & ->). apply in_or_app. right. left. reflexivity.
  - intros H. apply in_split in H as (b & r & ->). exists b, r. reflexivity.
Qed.

Lemma separators_white c : separators [] c <-> white c.
Proof. unfold separators, white. split; [intros [[H _]|[_ H]]; [congruence|exact H]|auto]. Qed.
Lemma separators_comma c : separators (lit ",") c <-> c = comma.
Proof.
  unfold separators. split.
  - intros [[_ [H|[]]]|[H _]]; [symmetry; exact H|discriminate].
  - intros ->. left. split; [discriminate|left; reflexivity].
Qed.
Lemma separators_slash c : separators slash c <-> c = "/"%char.
Proof. apply slash_separators. Qed.

Lemma separated_words_plain p s ws : separated p s ws -> forall w, In w ws -> w <> [] /\ all (fun c => ~ p c) w.
Proof.
  induction 1; intros u U.
  - destruct U.
  - destruct U as [<-|[]]. split; assumption.
  - destruct U as [<-|U]; [split; assumption|exact (IHseparated u U)].
Qed.

Lemma white_dec c : white c \/ ~ white c.
Proof. unfold white. destruct (in_dec ascii_dec c (map ascii_of_nat [9; 10; 11; 12; 13; 32])); auto. Qed.

Lemma white_spaces c : In c space_characters <-> white c.
Proof. rewrite <- separators_white. rewrite <- or_space_spec. reflexivity. Qed.

(** What stripping leaves of a word that has no white space at its ends *)
Lemma strip_begin_skip a s cs : all (fun c => In c cs) a -> strip_begin (a ++ s) cs = strip_begin s cs.
Proof.
  induction a as [|x a IH]; intros H; [reflexivity|]. cbn [app strip_begin].
  rewrite (proj2 (one_of_spec cs x) (H x (or_introl eq_refl))). apply IH. intros c C. apply H. right. exact C.
Qed.
Lemma strip_begin_stop c s cs : ~ In c cs -> strip_begin (c :: s) cs = c :: s.
Proof.
  intros H. cbn. destruct (one_of cs c) eqn:E; [|reflexivity]. apply one_of_spec in E. contradiction.
Qed.
Lemma strip_word a c m d b : all white a -> all white b -> ~ white c -> ~ white d ->
  strip (a ++ (c :: m ++ [d]) ++ b) [] = c :: m ++ [d].
Proof.
  intros A B C E. unfold strip, strip_end.
  rewrite !rev_app_distr. rewrite <- app_assoc. rewrite strip_begin_skip.
  2:{ intros x X. apply white_spaces, B, in_rev, X. }
  replace (rev (c :: m ++ [d])) with (d :: rev m ++ [c]) by (cbn; rewrite rev_app_distr; reflexivity).
  cbn [app]. rewrite strip_begin_stop by (rewrite white_spaces; exact E).
  cbn [rev]. rewrite !rev_app_distr. cbn [rev app]. rewrite !rev_involutive, <- !app_assoc. cbn [app].
  rewrite strip_begin_skip by (intros x X; apply white_spaces, A, X).
  cbn [app]. apply strip_begin_stop. rewrite white_spaces. exact C.
Qed.

Lemma strip_coards w : strip w [] = lit "COARDS" <-> exists a b, w = a ++ lit "COARDS" ++ b /\ all white a /\ all white b.
Proof.
  split.
  - intros E. destruct (C54_strip w []) as (_ & _ & _ & _ & (a & b & H & A & B) & _).
    rewrite E in H. exists a, b. split; [exact H|]. split; intros c C; apply separators_white; auto.
  - intros (a & b & -> & A & B). apply (strip_word a "C"%char (lit "OARD") "S"%char b A B);
      intros H; unfold white in H; cbn in H; repeat destruct H as [H|H]; try discriminate; destruct H.
Qed.

Lemma coards_plain a b w : w = a ++ lit "COARDS" ++ b -> all white a -> all white b -> all (fun c => ~ white c) w -> w = lit "COARDS".
Proof.
  intros -> A B H. destruct a as [|x a].
  - destruct b as [|y b]; [reflexivity|]. exfalso. apply (H y).
    + apply in_or_app. right. apply in_or_app. right. left. reflexivity.
    + apply B. left. reflexivity.
  - exfalso. apply (H x); [left; reflexivity|]. apply A. left. reflexivity.
Qed.

Lemma listed_spec t :
  In (lit "COARDS") (if contains t (lit ",") then map (fun w => strip w []) (split t (lit ",")) else split t []) <->
  listed t (lit "COARDS").
Proof.
  unfold listed. destruct (contains t (lit ",")) eqn:E.
  - apply contains_comma in E.
    assert (P : forall c, ((In comma t /\ c = comma) \/ (~ In comma t /\ white c)) <-> separators (lit ",") c).
    { intros c. rewrite separators_comma. tauto. }
    rewrite in_map_iff. split.
    + intros (w & S & W). apply strip_coards in S as (a & b & S & A & B). exists (split t (lit ",")), w, a, b.
      repeat split; try assumption. apply (separated_iff (separators (lit ","))); [intros c; symmetry; apply P|].
      apply split_spec. reflexivity.
    + intros (ws & w & a & b & S & W & F & A & B). exists w. split; [apply strip_coards; eauto|].
      apply (separated_iff _ (separators (lit ",")) _ _ P) in S. apply split_spec in S. rewrite S. exact W.
  - assert (N : ~ In comma t) by (rewrite <- contains_comma, E; discriminate).
    assert (P : forall c, ((In comma t /\ c = comma) \/ (~ In comma t /\ white c)) <-> separators [] c).
    { intros c. rewrite separators_white. tauto. }
    split.
    + intros W. exists (split t []), (lit "COARDS"), [], []. repeat split; try (intros c []); [|exact W].
      apply (separated_iff (separators [])); [intros c; symmetry; apply P|]. apply split_spec. reflexivity.
    + intros (ws & w & a & b & S & W & F & A & B). apply (separated_iff _ (separators []) _ _ P) in S.
      destruct (separated_words_plain _ _ _ S w W) as [_ Q].
      assert (w = lit "COARDS") as ->.
      { apply (coards_plain a b w F A B). intros c C X. apply (Q c C). apply separators_white. exact X. }
      apply split_spec in S. rewrite S. exact W.
Qed.

Lemma last_is_spec c t : last_is c t = true <-> exists r, t = r ++ [c].
Proof.
  unfold last_is. destruct (rev t) as [|d r] eqn:E.
  - split; [discriminate|]. intros (r & ->). rewrite rev_app_distr in E. discriminate.
  - apply (f_equal (@rev ascii)) in E. rewrite rev_involutive in E. cbn in E. subst t. rewrite Ascii.eqb_eq. split.
    + intros ->. exists (rev r). reflexivity.
    + intros (q & Q). apply app_inj_tail in Q as [_ Q]. congruence.
Qed.

Lemma zeros_not_listed n : ~ listed (repeat zero n) (lit "COARDS").
Proof.
  intros (ws & w & a & b & S & W & F & _ & _).
  assert (G : forall p s ws, separated p s ws -> forall w, In w ws -> forall c, In c w -> In c s).
  { clear. induction 1; intros u U c C.
    - destruct U.
    - destruct U as [<-|[]]. apply in_or_app. right. apply in_or_app. left. exact C.
    - apply in_or_app. right. apply in_or_app. destruct U as [<-|U]; [left; exact C|].
      right. right. exact (IHseparated u U c C). }
  assert (C : In "C"%char (repeat zero n)).
  { apply (G _ _ _ S w W). rewrite F. apply in_or_app. right. left. reflexivity. }
  apply repeat_spec in C. discriminate.
Qed.

Section Read.
Context {D : Type}.
Variables (debug : bool) (file_exists : text -> bool) (nc_open : text -> option (@dataset D)).

(** Whether a dataset conforms, and when that cannot be told *)
Lemma conforms_true d : conforms_to_coards debug d = Ok true <-> (debug = true -> well_formed d) /\ conforming (D := D) d.
Proof.
  unfold conforms_to_coards, conventions, well_formed, conforming.
  destruct (lookup (attributes d) (lit "Conventions")) as [a|] eqn:L.
  - pose proof (proj1 (lookup_has _ _ _) L) as H. destruct a as [t|n].
    + unfold attribute_text, check, bind. destruct (debug && negb true) eqn:X; [destruct debug; discriminate|].
      destruct (debug && negb (negb (last_is zero t))) eqn:Y.
      * split; [discriminate|]. intros [W _]. apply andb_true_iff in Y as [Y Z]. destruct (W Y _ H) as (t' & E & Q).
        injection E as <-. rewrite negb_involutive in Z. apply last_is_spec in Z as (r & Z). destruct (Q r Z).
      * destruct (in_dec same_text (lit "COARDS") _) as [I|I]; rewrite listed_spec in I.
        -- split; [intros _|reflexivity]. split; [|exists t; auto].
           intros B a A. rewrite (has_unique _ _ _ _ A H). exists t. split; [reflexivity|]. intros r R.
           rewrite B in Y. cbn in Y. rewrite negb_involutive in Y. rewrite (proj2 (last_is_spec zero t)) in Y by eauto. discriminate.
        -- split; [discriminate|]. intros [_ (t' & A & Q)]. pose proof (has_unique _ _ _ _ A H) as E. injection E as ->.
           contradiction.
    + unfold attribute_text, check, bind. split.
      * destruct debug; [discriminate|]. cbn [andb]. destruct (in_dec same_text (lit "COARDS") _) as [I|I]; [|discriminate].
        rewrite listed_spec in I. destruct (zeros_not_listed n I).
      * intros [_ (t & A & _)]. pose proof (has_unique _ _ _ _ A H). discriminate.
  - cbn [bind in_dec list_rec list_rect]. split; [discriminate|]. intros [_ (t & A & _)]. apply lookup_has in A. congruence.
Qed.
Lemma conforms_false d : conforms_to_coards debug d = Ok false <-> (debug = true -> well_formed d) /\ ~ conforming (D := D) d.
Proof.
  unfold conforms_to_coards, conventions, well_formed, conforming.
  destruct (lookup (attributes d) (lit "Conventions")) as [a|] eqn:L.
  - pose proof (proj1 (lookup_has _ _ _) L) as H. destruct a as [t|n].
    + unfold attribute_text, check, bind. destruct (debug && negb true) eqn:X; [destruct debug; discriminate|].
      destruct (debug && negb (negb (last_is zero t))) eqn:Y.
      * split; [discriminate|]. intros [W _]. apply andb_true_iff in Y as [Y Z]. destruct (W Y _ H) as (t' & E & Q).
        injection E as <-. rewrite negb_involutive in Z. apply last_is_spec in Z as (r & Z). destruct (Q r Z).
      * destruct (in_dec same_text (lit "COARDS") _) as [I|I]; rewrite listed_spec in I.
        -- split; [discriminate|]. intros [_ N]. destruct N. exists t. auto.
        -- split; [intros _|reflexivity]. split.
           ++ intros B a A. rewrite (has_unique _ _ _ _ A H). exists t. split; [reflexivity|]. intros r R.
              rewrite B in Y. cbn in Y. rewrite negb_involutive in Y. rewrite (proj2 (last_is_spec zero t)) in Y by eauto. discriminate.
           ++ intros (t' & A & Q). pose proof (has_unique _ _ _ _ A H) as E. injection E as ->. contradiction.
    + unfold attribute_text, check, bind. split.
      * destruct debug; [discriminate|]. intros _. split; [discriminate|]. intros (t & A & _).
        pose proof (has_unique _ _ _ _ A H). discriminate.
      * intros [W _]. destruct debug; [destruct (W eq_refl _ H) as (t & E & _); discriminate|]. cbn [andb].
        destruct (in_dec same_text (lit "COARDS") _) as [I|I]; [|reflexivity].
        rewrite listed_spec in I. destruct (zeros_not_listed n I).
  - cbn [bind in_dec list_rec list_rect]. split; [|reflexivity]. intros _. split.
    + intros _ a A. apply lookup_has in A. congruence.
    + intros (t & A & _). apply lookup_has in A. congruence.
Qed.
Lemma conforms_no_failure d e : conforms_to_coards (D := D) debug d <> Failed e.
Proof.
  unfold conforms_to_coards, conventions, attribute_text, check, bind.
  destruct (lookup _ _) as [[t|n]|]; [| |discriminate].
  - destruct (debug && _); [discriminate|]. destruct (debug && _); discriminate.
  - destruct (debug && _); [discriminate|]. destruct (debug && _); discriminate.
Qed.

Lemma names_first path name ns : names path = name :: ns -> first_name path name.
Proof.
  intros H. exists ns. apply (separated_iff (separators slash)); [apply separators_slash|]. apply split_spec. exact H.
Qed.
Lemma first_names path name : first_name path name -> exists ns, names path = name :: ns.
Proof.
  intros (ns & S). exists ns. apply split_spec.
  apply (separated_iff (fun c => c = "/"%char)); [intros c; symmetry; apply separators_slash|exact S].
Qed.
Lemma names_single path name : names path = [name] <-> single_name path name.
Proof.
  unfold names, single_name. rewrite split_spec.
  split; apply separated_iff; intros c; [|symmetry]; apply separators_slash.
Qed.

Lemma io_error_spec {A} pathname id arguments :
  length arguments = length (snd (MessageSpec.frame id)) ->
  io_error (A := A) debug pathname id arguments =
  Failed (MessageModel.IOError pathname (MessageSpec.filled (fst (MessageSpec.frame id)) (snd (MessageSpec.frame id)) arguments)).
Proof. intros L. unfold io_error. rewrite MessageProps.C89_format, L, Nat.eqb_refl. reflexivity. Qed.
End Read.
