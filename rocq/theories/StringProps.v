(** * C53 and C54: data names and string functions *)
From Coq Require Import String Ascii List Bool Arith Lia.
From Verif Require Import StringModel StringSpec StringProofs.
Import ListNotations.

(** ** C54: string functions *)

(** Splitting gives exactly the words: the longest runs of other characters between the
    separators, in order. *)
Theorem C54_split s characters ws :
  split s characters = ws <-> separated (separators characters) s ws.
Proof. apply split_spec. Qed.
Print Assumptions C54_split.

(** Joining puts the separator between the strings.  Splitting gives the strings back if they
    are not empty, have none of the separating characters and the separator has nothing else. *)
Theorem C54_join ws separator :
  join ws separator = joined separator ws /\
  forall characters, separator <> [] -> all (separators characters) separator ->
    (forall w, In w ws -> w <> [] /\ all (fun c => ~ separators characters c) w) ->
    split (join ws separator) characters = ws.
Proof.
  split; [apply join_joined|]. intros cs N A H. rewrite join_joined. apply split_spec.
  apply joined_separated; auto.
Qed.
Print Assumptions C54_join.

(** Stripping removes the characters at the begin, at the end or at both, and nothing else. *)
Theorem C54_strip s characters :
  (exists a, s = a ++ strip_begin s characters /\ all (fun c => In c characters) a) /\
  (forall c r, strip_begin s characters = c :: r -> ~ In c characters) /\
  (exists b, s = strip_end s characters ++ b /\ all (fun c => In c characters) b) /\
  (forall c r, strip_end s characters = r ++ [c] -> ~ In c characters) /\
  (exists a b, s = a ++ strip s characters ++ b /\
     all (separators characters) a /\ all (separators characters) b) /\
  (forall c r, strip s characters = c :: r -> ~ separators characters c) /\
  (forall c r, strip s characters = r ++ [c] -> ~ separators characters c).
Proof.
  destruct (strip_begin_spec s characters) as [A B].
  destruct (strip_end_spec s characters) as [C D].
  do 4 (split; auto).
  assert (Sep : forall cs t, or_space characters = cs -> all (fun c => In c cs) t -> all (separators characters) t).
  { intros cs t <- H c Hc. apply or_space_spec. auto. }
  assert (NSep : forall cs c, or_space characters = cs -> ~ In c cs -> ~ separators characters c).
  { intros cs c <- H S. apply H, or_space_spec; auto. }
  destruct characters as [|x xs]; cbn [strip].
  - set (cs := space_characters) in *.
    destruct (strip_end_spec s cs) as [(b & E1 & B1) N1].
    destruct (strip_begin_spec (strip_end s cs) cs) as [(a & E2 & A2) N2].
    split; [|split].
    + exists a, b. rewrite app_assoc, <- E2, <- E1. eauto.
    + intros c r E. apply (NSep cs); auto. eapply N2; eauto.
    + intros c r E. apply (NSep cs); auto. apply (N1 c (a ++ r)). rewrite E2, E, app_assoc. auto.
  - set (cs := x :: xs) in *.
    destruct (strip_begin_spec s cs) as [(a & E1 & A1) N1].
    destruct (strip_end_spec (strip_begin s cs) cs) as [(b & E2 & B2) N2].
    split; [|split].
    + exists a, b. rewrite <- E2, <- E1. eauto.
    + intros c r E. apply (NSep cs); auto. apply (N1 c (r ++ b)). rewrite E2, E. auto.
    + intros c r E. apply (NSep cs); auto. eapply N2; eauto.
Qed.
Print Assumptions C54_strip.

Theorem C54_search s sub :
  (starts_with s sub = true <-> exists r, s = sub ++ r) /\
  (ends_with s sub = true <-> exists r, s = r ++ sub) /\
  (contains s sub = true <-> exists before after, s = before ++ sub ++ after).
Proof.
  split; [apply starts_with_spec|split; [apply ends_with_spec|apply contains_spec]].
Qed.
Print Assumptions C54_search.

(** Replacing replaces the occurrences found from left to right, each behind the previous one,
    and leaves everything else; nothing is replaced if the string searched for is empty. *)
Theorem C54_replace s old new :
  (old = [] -> replace s old new = s) /\
  (old <> [] ->
     (exists parts, cut old s parts /\ s = joined old parts /\
        replace s old new = joined new parts) /\
     (forall parts, cut old s parts -> replace s old new = joined new parts)).
Proof.
  split; [intros ->; auto|]. intros N.
  assert (R : replace s old new = replace_loop old new 0 s) by (destruct old; [congruence|reflexivity]).
  rewrite R. split.
  - destruct (cut_exists old N s) as [parts C]. exists parts. split; auto.
    split; [eapply cut_joined; eauto|apply cut_replace; auto].
  - intros parts C. apply cut_replace; auto.
Qed.
Print Assumptions C54_replace.

Example C54_case_split :
  split (lit "xxabxyxcdxx") (lit "xy") = [lit "ab"; lit "cd"] /\
  split (lit "  a bc") (lit "") = [lit "a"; lit "bc"] /\
  split (join [lit "a"; lit "bc"] (lit ", ")) (lit " ,") = [lit "a"; lit "bc"].
Proof. repeat split. Qed.
Example C54_case_strip : strip (lit "bla bla") (lit "ba") = lit "la bl" /\
  strip (lit "  a b ") (lit "") = lit "a b".
Proof. split; reflexivity. Qed.
Example C54_case_replace : replace (lit "a///b") (lit "//") (lit "/") = lit "a//b" /\
  replace (lit "aaa") (lit "aa") (lit "b") = lit "ba" /\ contains (lit "abc") (lit "bc") = true.
Proof. repeat split. Qed.

(** ** C53: data names *)

(** [s] is [database], or [database], a colon and [data]; the first colon counts. *)
Definition named (s database data : text) : Prop :=
  ~ In colon database /\
  ((s = database /\ data = []) \/ s = database ++ colon :: data).

(** A data name is accepted exactly if the part before the first colon is not empty and there
    are no line ends behind that colon.  The database name is that part; the data name is the
    list of non-empty names between the slashes in the other part, each with a slash before it,
    or a single slash. *)
Theorem C53_data_name s database path :
  data_name s = Some (database, path) <->
  exists data ns, named s database data /\ database <> [] /\
    (forall c, In c data -> c <> ascii_of_nat 10 /\ c <> ascii_of_nat 13) /\
    separated (fun c => c = "/"%char) data ns /\ path = slash ++ joined slash ns.
Proof.
  assert (Ends : forall data, existsb line_end data = false <->
    forall c, In c data -> c <> ascii_of_nat 10 /\ c <> ascii_of_nat 13).
  { intros data. rewrite <- not_true_iff_false, existsb_exists. unfold line_end. split.
    - intros H c Hc. split; intros ->; apply H; eexists; (split; [eauto|reflexivity]).
    - intros H (c & Hc & E). apply one_of_spec in E. destruct (H c Hc). cbn [In] in E. intuition congruence. }
  assert (Path : forall data ns, separated (fun c => c = "/"%char) data ns <-> split data slash = ns).
  { intros data ns. rewrite split_spec. split; apply separated_iff; intros c; rewrite slash_separators; tauto. }
  assert (Name : forall database data : text, match single_slashes (length data) (strip_end data slash) with
      | None => None
      | Some path =>
          let path :=
            match path with
            | [] => slash
            | _ => if starts_with path slash then path else slash ++ path
            end in
          if starts_with path slash then Some (database, path) else None
      end = Some (database, slash ++ joined slash (split data slash))).
  { intros db data. destruct (data_path data) as (p & -> & E). cbv zeta. rewrite E.
    assert (St : starts_with (slash ++ joined slash (split data slash)) slash = true)
      by (apply starts_with_spec; eauto). rewrite St. auto. }
  unfold data_name, match_name. split.
  - destruct (before_colon s) as [a b] eqn:E. apply before_colon_spec in E as (-> & N & B).
    destruct a as [|x a]; [discriminate|]. destruct B as [->|[r ->]].
    + rewrite Name. intros H. injection H as <- <-. exists [], [].
      split; [split; auto; left; split; auto; apply app_nil_r|]. split; [discriminate|].
      split; [intros c []|]. split; [apply Path; reflexivity|reflexivity].
    + destruct (existsb line_end r) eqn:L; [discriminate|]. rewrite Name. intros H. injection H as <- <-.
      exists r, (split r slash). split; [split; auto|]. split; [discriminate|].
      split; [apply Ends; auto|]. split; [apply Path; auto|auto].
  - intros (data & ns & [N E] & Nd & L & S & ->). apply Path in S. subst ns. apply Ends in L.
    destruct E as [[-> ->]| ->].
    + rewrite <- (app_nil_r database) at 1. rewrite before_colon_app; auto.
      destruct database as [|x a]; [congruence|]. rewrite Name. auto.
    + rewrite before_colon_app by eauto.
      destruct database as [|x a]; [congruence|]. rewrite L, Name. auto.
Qed.
Print Assumptions C53_data_name.

Theorem C53_rejected s :
  data_name s = None <->
  s = [] \/ (exists r, s = colon :: r) \/
  (exists database data, ~ In colon database /\ s = database ++ colon :: data /\
     (In (ascii_of_nat 10) data \/ In (ascii_of_nat 13) data)).
Proof.
  split.
  - intros H. destruct (before_colon s) as [a b] eqn:E. apply before_colon_spec in E as (-> & N & B).
    destruct a as [|x a].
    { destruct B as [->|[r ->]]; cbn; [auto|right; left; eauto]. }
    destruct B as [->|[r ->]].
    + exfalso. assert (C : data_name ((x :: a) ++ []) = Some (x :: a, slash)); [|congruence].
      apply C53_data_name. exists [], []. split; [split; auto; left; split; auto; apply app_nil_r|].
      split; [discriminate|]. split; [intros c []|]. split; [constructor; intros c []|reflexivity].
    + right. right. exists (x :: a), r. split; auto. split; auto.
      destruct (in_dec ascii_dec (ascii_of_nat 10) r) as [|N1]; auto.
      destruct (in_dec ascii_dec (ascii_of_nat 13) r) as [|N2]; auto. exfalso.
      assert (C : data_name ((x :: a) ++ colon :: r) = Some (x :: a, slash ++ joined slash (split r slash))); [|congruence].
      apply C53_data_name. exists r, (split r slash). split; [split; auto|]. split; [discriminate|].
      split; [intros c Hc; split; intros ->; auto|]. split; auto.
      eapply separated_iff; [apply slash_separators|]. apply split_spec. auto.
  - intros H. destruct (data_name s) as [[d p]|] eqn:E; auto. exfalso.
    apply C53_data_name in E as (data & ns & [N E] & Nd & L & _).
    assert (Same : forall a b a' b', ~ In colon a -> ~ In colon a' ->
      a ++ colon :: b = a' ++ colon :: b' -> a = a' /\ b = b').
    { clear. induction a as [|x a IH]; intros b a' b' H H' E; destruct a' as [|y a']; cbn in *.
      - inversion E; auto. - inversion E; subst. tauto. - inversion E; subst. tauto.
      - inversion E; subst. destruct (IH b a' b') as [-> ->]; auto. }
    assert (NoColon : forall a b, ~ In colon (a ++ colon :: b) -> False).
    { intros a b C. apply C, in_or_app. cbn; auto. }
    destruct H as [->|[[r ->]|(db & dt & N' & -> & T)]].
    + destruct E as [[<- _]|E]; [congruence|]. destruct d; discriminate.
    + destruct E as [[<- _]|E]; [cbn in N; tauto|]. destruct d as [|x d]; [congruence|].
      inversion E; subst. cbn in N. tauto.
    + destruct E as [[E ->]|E].
      * subst d. eapply NoColon; eauto.
      * apply Same in E as [-> ->]; auto. destruct T as [T|T]; apply L in T; tauto.
Qed.
Print Assumptions C53_rejected.

Lemma separated_parts sep s ws : separated sep s ws -> forall w, In w ws ->
  w <> [] /\ all (fun c => ~ sep c) w /\ forall c, In c w -> In c s.
Proof.
  induction 1 as [before B|before w after B N W A|before w d s ws B N W D Nw H IH]; intros x Hx.
  - destruct Hx.
  - destruct Hx as [<-|[]]. repeat split; auto. intros c Hc. rewrite !in_app_iff. auto.
  - destruct Hx as [<-|Hx].
    + repeat split; auto. intros c Hc. rewrite !in_app_iff. auto.
    + destruct (IH x Hx) as (H1 & H2 & H3). repeat split; auto. intros c Hc. rewrite !in_app_iff. cbn. auto.
Qed.

(** Data paths are normal, have the same names as the text they come from, and parsing the
    normalised name gives it back. *)
Theorem C53_normal s database path :
  data_name s = Some (database, path) ->
  normal_path path /\
  (exists r, path = slash ++ r) /\
  (forall a b, path <> a ++ slashes ++ b) /\
  (forall r, path = r ++ slash -> r = []) /\
  (forall data, named s database data -> names path = names data) /\
  data_name (database ++ colon :: path) = Some (database, path).
Proof.
  intros E. pose proof E as E0. apply C53_data_name in E as (data & ns & Hn & Nd & L & S & ->).
  pose proof (separated_parts _ _ _ S) as P.
  assert (Q : forall n, In n ns -> n <> [] /\ ~ In "/"%char n).
  { intros n Hn'. destruct (P n Hn') as (H1 & H2 & _). split; auto. intros C. apply (H2 _ C); auto. }
  assert (Sj : separated (fun c => c = "/"%char) (joined slash ns) ns).
  { apply joined_separated; [discriminate|intros c [<-|[]]; auto|].
    intros w Hw. destruct (P w Hw) as (H1 & H2 & _). auto. }
  assert (Sp : separated (fun c => c = "/"%char) (slash ++ joined slash ns) ns).
  { apply separated_cons; auto. }
  assert (J : ns = [] \/ exists c r, c <> "/"%char /\ joined slash ns = r ++ [c] /\ joined slash ns <> [] /\
     (forall r', joined slash ns <> "/"%char :: r') /\ contains (joined slash ns) slashes = false).
  { clear - Q. induction ns as [|w ns IH]; auto. right.
    destruct (Q w (or_introl eq_refl)) as [Q1 Q2].
    assert (W : forall b a t, w ++ t = b ++ slashes ++ a -> exists b', t = b' ++ slashes ++ a \/ exists a', t = "/"%char :: a' /\ False).
    { clear - Q2. intros b. revert w Q2. induction b as [|x b IH]; intros w Q2 a t E.
      - destruct w as [|y w]; [exists []; auto|]. inversion E; subst. exfalso; apply Q2; cbn; auto.
      - destruct w as [|y w]; [exists (x :: b); auto|]. cbn in E. inversion E; subst. apply (IH w) with (a := a); auto.
        intros H; apply Q2; cbn; auto. }
    assert (Cw : contains w slashes = false).
    { apply not_true_iff_false. intros C. apply contains_spec in C as (b & a & C).
      apply Q2. rewrite C. apply in_or_app. right. cbn; auto. }
    destruct ns as [|v ns].
    - cbn [joined]. destruct w as [|c w _] using rev_ind; [congruence|]. exists c, w. 
      split; [intros ->; apply Q2, in_or_app; cbn; auto|]. split; auto. split; [destruct w; discriminate|].
      split; auto. intros r' E. apply Q2. rewrite E. cbn; auto.
    - destruct IH as [|(c & r & H1 & H2 & H3 & H4 & H5)]; [intros n Hn; apply Q; cbn in *; tauto|discriminate|].
      rewrite joined_cons by discriminate. set (j := joined slash (v :: ns)) in *.
      exists c, (w ++ slash ++ r). split; auto. split; [rewrite H2, <- !app_assoc; auto|].
      split; [destruct w; discriminate|]. split.
      + intros r' E. destruct w as [|y w]; [congruence|]. inversion E; subst. apply Q2; cbn; auto.
      + apply not_true_iff_false. intros C. apply contains_spec in C as (b & a & C).
        destruct (W b a _ C) as (b' & [E|(a' & _ & [])]). destruct b' as [|y b'].
        * cbn in E. inversion E as [E']. apply (H4 a). auto.
        * inversion E as [[E1 E2]]. apply not_true_iff_false in H5. apply H5, contains_spec. exists b', a. auto. }
  split; [exists ns; auto|]. split; [eauto|]. split; [|split; [|split]].
  - intros a b E. destruct J as [->|(c & r & H1 & H2 & H3 & H4 & H5)].
    + destruct a as [|x a]; [discriminate|]. inversion E. destruct a; discriminate.
    + destruct a as [|x a].
      * cbn in E. inversion E as [E']. apply (H4 b); auto.
      * inversion E as [[E1 E2]]. apply not_true_iff_false in H5. apply H5, contains_spec. exists a, b. auto.
  - intros r E. destruct J as [->|(c & r' & H1 & H2 & H3 & H4 & H5)].
    + destruct r as [|x r]; auto. inversion E. destruct r; discriminate.
    + exfalso. rewrite H2, app_assoc in E. apply app_inj_tail in E as [_ E]. auto.
  - intros data' Hn'. assert (data' = data) as ->.
    { clear - Hn Hn'. destruct Hn as [N1 [[E1 ->]| E1]], Hn' as [N2 [[E2 ->]| E2]]; auto; subst s.
      - exfalso. apply (f_equal (@length _)) in E2. rewrite app_length in E2. cbn in E2. lia.
      - exfalso. apply (f_equal (@length _)) in E2. rewrite app_length in E2. cbn in E2. lia.
      - apply app_inv_head in E2. congruence. }
    unfold names. transitivity ns; [|symmetry]; apply split_spec;
      (eapply separated_iff; [|eauto]; intros c; rewrite slash_separators; tauto).
  - apply C53_data_name. exists (slash ++ joined slash ns), ns.
    split; [destruct Hn as [N _]; split; auto|]. split; auto. split; [|auto].
    intros c Hc. assert (In c data \/ c = "/"%char).
    { cbn in Hc. destruct Hc as [<-|Hc]; auto. clear - Hc P.
      induction ns as [|w ns IH]; [destruct Hc|]. destruct ns as [|v ns].
      - cbn in Hc. left. apply (P w); cbn; auto.
      - rewrite joined_cons in Hc by discriminate. rewrite !in_app_iff in Hc.
        destruct Hc as [Hc|[[<-|[]]|Hc]]; auto.
        + left. apply (P w); cbn; auto.
        + apply IH; auto. intros x Hx. apply P. cbn in *; tauto. }
    destruct H as [H| ->]; auto. split; discriminate.
Qed.
Print Assumptions C53_normal.

Example C53_case :
  data_name (lit "dataset:path:x/////to//") = Some (lit "dataset", lit "/path:x/to") /\
  data_name (lit "dataset") = Some (lit "dataset", lit "/") /\
  data_name (lit "d://") = Some (lit "d", lit "/") /\
  data_name (lit ":path") = None /\
  data_name (lit "d:a" ++ [ascii_of_nat 10]) = None /\
  names (lit "/path:x/to") = [lit "path:x"; lit "to"].
Proof. repeat split. Qed.
