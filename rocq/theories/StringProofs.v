(** Proofs about strings and data names. *)
From Coq Require Import String Ascii List Bool Arith Lia.
From Verif Require Import StringModel StringSpec.
Import ListNotations.

Lemma one_of_spec cs c : one_of cs c = true <-> In c cs.
Proof.
  unfold one_of. rewrite existsb_exists. split.
  - intros (x & H & E). apply Ascii.eqb_eq in E; subst; auto.
  - intros H. exists c. split; auto. apply Ascii.eqb_refl.
Qed.

Lemma or_space_spec cs c : In c (or_space cs) <-> separators cs c.
Proof.
  unfold or_space, separators. destruct cs as [|d cs].
  - change space_characters with (map ascii_of_nat [9; 10; 11; 12; 13; 32]). split; auto.
    intros [[H _]|[_ H]]; auto. congruence.
  - split; [|intros [[_ H]|[H _]]; auto; discriminate]. left. split; auto. discriminate.
Qed.

(** ** Splitting *)
Section Split.
Variable sep : ascii -> bool.

Definition words (m : bool) (cur s : text) : list text :=
  filter (fun w : text => match w with [] => false | _ => true end) (tokens sep m cur s).

Lemma words_matching s : words true [] s = words false [] s.
Proof. destruct s as [|c s]; cbn; auto. unfold words. cbn. destruct (sep c); auto. Qed.

Lemma words_sep m c s : sep c = true -> words m [] (c :: s) = words false [] s.
Proof.
  intros H. rewrite <- words_matching. unfold words. cbn. rewrite H. destruct m; auto.
Qed.

Lemma words_before before : forall m s, (forall c, In c before -> sep c = true) ->
  words m [] (before ++ s) = words false [] s.
Proof.
  induction before as [|c before IH]; intros m s H; cbn [app].
  - destruct m; auto using words_matching.
  - rewrite words_sep by (apply H; cbn; auto). apply IH. intros d Hd. apply H; cbn; auto.
Qed.

Lemma words_word w : forall cur s, w <> [] -> (forall c, In c w -> sep c = false) ->
  forall m, words m cur (w ++ s) = words false (rev w ++ cur) s.
Proof.
  induction w as [|c w IH]; intros cur s N H m; [congruence|].
  unfold words. cbn [app tokens]. rewrite H by (cbn; auto).
  destruct w as [|d w]; [reflexivity|].
  change (words false (c :: cur) ((d :: w) ++ s) = words false (rev (c :: d :: w) ++ cur) s).
  rewrite IH; [|discriminate|intros x Hx; apply H; cbn in *; tauto].
  cbn [rev]. rewrite <- !app_assoc. reflexivity.
Qed.

Lemma words_end cur d s : cur <> [] -> sep d = true ->
  words false cur (d :: s) = rev cur :: words false [] s.
Proof.
  intros N H. unfold words. cbn [tokens]. rewrite H. cbn [filter].
  destruct (rev cur) as [|x r] eqn:E.
  - exfalso. apply N. rewrite <- (rev_involutive cur), E. reflexivity.
  - f_equal. apply words_matching.
Qed.

Lemma words_nil cur m : cur <> [] -> words m cur [] = [rev cur].
Proof.
  intros N. unfold words. cbn. destruct (rev cur) as [|x r] eqn:E; auto.
  exfalso. apply N. rewrite <- (rev_involutive cur), E. reflexivity.
Qed.

Variable psep : ascii -> Prop.
Hypothesis psep_spec : forall c, sep c = true <-> psep c.

Lemma sep_false c : sep c = false <-> ~ psep c.
Proof. rewrite <- psep_spec. destruct (sep c); split; congruence. Qed.

Lemma separated_words s ws : separated psep s ws -> words false [] s = ws.
Proof.
  intros H. induction H as [before B|before w after B N W A|before w d s ws B N W D Nw H IH].
  - rewrite <- (app_nil_r before), words_before; auto. intros c Hc. apply psep_spec, B; auto.
  - rewrite words_before by (intros c Hc; apply psep_spec, B; auto).
    rewrite words_word; auto; [|intros c Hc; apply sep_false, W; auto].
    rewrite app_nil_r. destruct after as [|d after].
    + rewrite words_nil, rev_involutive; auto.
      intros E. apply N. rewrite <- (rev_involutive w), E. auto.
    + rewrite words_end, rev_involutive.
      * rewrite <- (app_nil_r after), words_before; auto. intros c Hc. apply psep_spec, A; cbn; auto.
      * intros E. apply N. rewrite <- (rev_involutive w), E. auto.
      * apply psep_spec, A; cbn; auto.
  - rewrite words_before by (intros c Hc; apply psep_spec, B; auto).
    rewrite words_word; auto; [|intros c Hc; apply sep_false, W; auto].
    rewrite app_nil_r, words_end, rev_involutive; [congruence| |apply psep_spec; auto].
    intros E. apply N. rewrite <- (rev_involutive w), E. auto.
Qed.

Lemma separated_cons c s ws : psep c -> separated psep s ws -> separated psep (c :: s) ws.
Proof.
  intros C H. destruct H as [before B|before w after B N W A|before w d s ws B N W D Nw H].
  - constructor. intros x [<-|Hx]; auto.
  - apply (separated_last psep (c :: before)); auto. intros x [<-|Hx]; auto.
  - apply (separated_more psep (c :: before)); auto. intros x [<-|Hx]; auto.
Qed.

Lemma separated_nil s : separated psep s [] -> all psep s.
Proof. intros H. inversion H; auto. Qed.

Lemma words_separated s : forall cur, (forall c, In c cur -> ~ psep c) ->
  separated psep (rev cur ++ s) (words false cur s).
Proof.
  induction s as [|c s IH]; intros cur H.
  - destruct cur as [|x cur].
    + cbn. constructor. intros c [].
    + rewrite words_nil by discriminate. rewrite <- (app_nil_r (rev _)) at 1.
      rewrite <- app_assoc.
      apply (separated_last psep [] (rev (x :: cur)) []); try (intros c []).
      * intros E. apply (f_equal (@length _)) in E. rewrite rev_length in E. discriminate.
      * intros c Hc. apply H. apply in_rev; auto.
  - destruct (sep c) eqn:E.
    + destruct cur as [|x cur].
      * rewrite words_sep by auto. cbn. apply separated_cons; [apply psep_spec; auto|].
        apply (IH []). intros d [].
      * rewrite words_end by (auto; discriminate).
        assert (N : rev (x :: cur) <> []).
        { intros E1. apply (f_equal (@length _)) in E1. rewrite rev_length in E1. discriminate. }
        assert (W : all (fun c => ~ psep c) (rev (x :: cur))).
        { intros d Hd. apply H. apply in_rev; auto. }
        specialize (IH [] ltac:(intros d [])). cbn [rev app] in IH.
        destruct (words false [] s) as [|w ws] eqn:Ew.
        -- apply (separated_last psep [] (rev (x :: cur)) (c :: s)); auto; [intros d []|].
           intros d [<-|Hd]; [apply psep_spec; auto|]. apply separated_nil in IH. auto.
        -- apply (separated_more psep [] (rev (x :: cur)) c s); auto; [intros d []|apply psep_spec; auto|discriminate].
    + replace (words false cur (c :: s)) with (words false (c :: cur) s)
        by (unfold words; cbn; rewrite E; auto).
      specialize (IH (c :: cur)). cbn [rev] in IH. rewrite <- app_assoc in IH. apply IH.
      intros d [<-|Hd]; auto. apply sep_false; auto.
Qed.
End Split.

Lemma separated_iff p q s ws : (forall c, p c <-> q c) -> separated p s ws -> separated q s ws.
Proof.
  intros E H. assert (A : forall t, all p t -> all q t) by (intros t A c Hc; apply E, A; auto).
  assert (A' : forall t, all (fun c => ~ p c) t -> all (fun c => ~ q c) t).
  { intros t A1 c Hc Q. apply (A1 c Hc), E; auto. }
  induction H as [before B|before w after B N W A1|before w d s ws B N W D Nw H IH].
  - constructor; auto.
  - constructor; auto.
  - constructor; auto. apply E; auto.
Qed.

Lemma split_spec s cs ws : split s cs = ws <-> separated (separators cs) s ws.
Proof.
  assert (P : forall c, one_of (or_space cs) c = true <-> separators cs c).
  { intros c. rewrite one_of_spec. apply or_space_spec. }
  split.
  - intros <-. apply (words_separated (one_of (or_space cs)) (separators cs) P s []). intros c [].
  - apply (separated_words (one_of (or_space cs)) (separators cs) P).
Qed.

(** ** Joining *)
Lemma fold_join (sep : text) (ws : list text) : forall w : text, fold_left (fun r w' => (r ++ sep) ++ w') ws w =
  w ++ concat (map (fun w' => sep ++ w') ws).
Proof.
  induction ws as [|v ws IH]; intros w; cbn; [rewrite app_nil_r; auto|].
  rewrite IH, <- !app_assoc. auto.
Qed.

Lemma joined_concat (sep : text) (ws : list text) : forall w : text,
  joined sep (w :: ws) = w ++ concat (map (fun w' => sep ++ w') ws).
Proof.
  induction ws as [|v ws IH]; intros w; [cbn; rewrite app_nil_r; auto|].
  change (joined sep (w :: v :: ws)) with (w ++ sep ++ joined sep (v :: ws)).
  rewrite IH. cbn [map concat]. rewrite <- app_assoc. auto.
Qed.

Lemma join_joined ws sep : join ws sep = joined sep ws.
Proof.
  destruct ws as [|w ws]; auto. unfold join. rewrite fold_join, joined_concat. auto.
Qed.

Lemma joined_separated p sep ws : sep <> [] -> all p sep ->
  (forall w, In w ws -> w <> [] /\ all (fun c => ~ p c) w) -> separated p (joined sep ws) ws.
Proof.
  intros N A. induction ws as [|w ws IH]; intros H.
  - constructor. intros c [].
  - destruct (H w (or_introl eq_refl)) as [Hw1 Hw2]. destruct ws as [|v ws].
    + cbn. rewrite <- (app_nil_r w) at 1. apply (separated_last p [] w []); auto; intros c [].
    + change (joined sep (w :: v :: ws)) with (w ++ sep ++ joined sep (v :: ws)).
      destruct sep as [|d sep]; [congruence|].
      apply (separated_more p [] w d (sep ++ joined (d :: sep) (v :: ws))); auto.
      * intros c []. * apply A; cbn; auto. * discriminate.
      * assert (S : separated p (joined (d :: sep) (v :: ws)) (v :: ws))
          by (apply IH; intros x Hx; apply H; cbn in *; tauto).
        assert (A2 : all p sep) by (intros c Hc; apply A; cbn; auto).
        revert S A2. generalize (joined (d :: sep) (v :: ws)). clear.
        intros s S A2. induction sep as [|c sep IH]; auto. cbn. apply separated_cons.
        -- apply A2; cbn; auto. -- apply IH. intros x Hx; apply A2; cbn; auto.
Qed.

(** ** Stripping *)
Lemma strip_begin_spec s cs :
  (exists a, s = a ++ strip_begin s cs /\ all (fun c => In c cs) a) /\
  (forall c r, strip_begin s cs = c :: r -> ~ In c cs).
Proof.
  induction s as [|c s [(a & E & A) H]]; cbn.
  - split; [exists []; split; auto; intros c []|discriminate].
  - destruct (one_of cs c) eqn:O.
    + apply one_of_spec in O. split; auto. exists (c :: a). split; [cbn; congruence|].
      intros x [<-|Hx]; auto.
    + split; [exists []; split; auto; intros x []|]. intros x r Ex. inversion Ex; subst.
      rewrite <- one_of_spec. congruence.
Qed.

Lemma strip_end_spec s cs :
  (exists b, s = strip_end s cs ++ b /\ all (fun c => In c cs) b) /\
  (forall c r, strip_end s cs = r ++ [c] -> ~ In c cs).
Proof.
  unfold strip_end. destruct (strip_begin_spec (rev s) cs) as [(a & E & A) H]. split.
  - exists (rev a). split.
    + apply (f_equal (@rev _)) in E. rewrite rev_involutive, rev_app_distr in E. auto.
    + intros c Hc. apply A, in_rev; auto.
  - intros c r Er. apply (H c (rev r)). apply (f_equal (@rev _)) in Er.
    rewrite rev_involutive, rev_app_distr in Er. auto.
Qed.

(** ** Searching *)
Lemma starts_with_spec sub : forall s, starts_with s sub = true <-> exists r, s = sub ++ r.
Proof.
  induction sub as [|c sub IH]; intros s.
  - destruct s; cbn; split; eauto.
  - destruct s as [|d s]; cbn; [split; [discriminate|intros [r E]; discriminate]|].
    rewrite andb_true_iff, Ascii.eqb_eq, IH. split.
    + intros [-> [r ->]]. eauto.
    + intros [r E]. inversion E; subst. eauto.
Qed.

Lemma ends_with_spec s sub : ends_with s sub = true <-> exists r, s = r ++ sub.
Proof.
  unfold ends_with. rewrite starts_with_spec. split.
  - intros [r E]. exists (rev r). apply (f_equal (@rev _)) in E.
    rewrite rev_app_distr, !rev_involutive in E. auto.
  - intros [r ->]. exists (rev r). apply rev_app_distr.
Qed.

Lemma contains_spec s sub : contains s sub = true <-> exists before, occurs_after before sub s.
Proof.
  unfold occurs_after. induction s as [|c s IH]; cbn [contains]; rewrite orb_true_iff, starts_with_spec.
  - split.
    + intros [[r E]|H]; [|discriminate]. exists [], r. auto.
    + intros (b & a & E). left. destruct b; [|discriminate]. exists a. auto.
  - rewrite IH. split.
    + intros [[r E]|(b & a & E)]; [exists [], r; auto|]. exists (c :: b), a. cbn. congruence.
    + intros (b & a & E). destruct b as [|d b]; [left; exists a; auto|]. right. inversion E; subst. eauto.
Qed.

(** ** Replacing *)
Lemma skip_spec old new k : forall s, replace_loop old new k s = replace_loop old new 0 (skipn k s).
Proof.
  induction k as [|k IH]; intros s; auto. destruct s as [|c s]; auto. cbn [replace_loop skipn]. apply IH.
Qed.

Lemma cut_not_nil old s parts : cut old s parts -> parts <> [].
Proof. destruct 1; discriminate. Qed.

Lemma joined_cons sep part parts : parts <> [] -> joined sep (part :: parts) = part ++ sep ++ joined sep parts.
Proof. destruct parts; [congruence|auto]. Qed.

Lemma cut_joined old s parts : cut old s parts -> s = joined old parts.
Proof.
  induction 1 as [s H|part s parts H C IH]; auto.
  rewrite joined_cons, <- IH; auto. eapply cut_not_nil; eauto.
Qed.

Lemma cut_replace old new s parts : old <> [] -> cut old s parts ->
  replace_loop old new 0 s = joined new parts.
Proof.
  intros N H. induction H as [s H|part s parts H C IH].
  - cbn [joined]. induction s as [|c s IHs]; auto. cbn [replace_loop].
    destruct (starts_with (c :: s) old) eqn:E.
    + apply starts_with_spec in E as [r E]. exfalso. apply (H []). exists r. auto.
    + f_equal. apply IHs. intros b [a Ea]. apply (H (c :: b)). exists a. cbn. congruence.
  - rewrite joined_cons, <- IH by (eapply cut_not_nil; eauto). clear IH C parts.
    induction part as [|c part IHp].
    + destruct old as [|o old]; [congruence|]. cbn [app replace_loop].
      assert (E : starts_with (o :: old ++ s) (o :: old) = true) by (apply starts_with_spec; exists s; auto).
      rewrite E. f_equal. cbn [length pred]. rewrite skip_spec.
      rewrite skipn_app, skipn_all, Nat.sub_diag. auto.
    + cbn [app replace_loop]. destruct (starts_with (c :: part ++ old ++ s) old) eqn:E.
      * apply starts_with_spec in E as [r E]. specialize (H []). cbn in H.
        exfalso. apply (Nat.nle_succ_0 (length part)), H. exists r. auto.
      * f_equal. apply IHp. intros b [a Ea]. specialize (H (c :: b)). cbn in H.
        apply le_S_n, H. exists a. cbn. congruence.
Qed.

Lemma first_occurrence old s : contains s old = true -> exists part r,
  s = part ++ old ++ r /\ forall b, occurs_after b old s -> length part <= length b.
Proof.
  induction s as [|c s IH]; cbn [contains]; destruct (starts_with _ old) eqn:E; cbn [orb]; intros H.
  - apply starts_with_spec in E as [r ->]. exists [], r. split; auto. cbn; intros; lia.
  - discriminate.
  - apply starts_with_spec in E as [r ->]. exists [], r. split; auto. cbn; intros; lia.
  - destruct (IH H) as (part & r & -> & M). exists (c :: part), r. split; auto.
    intros b [a Ea]. destruct b as [|d b].
    + exfalso. assert (starts_with (c :: part ++ old ++ r) old = true)
        by (apply starts_with_spec; exists a; auto). congruence.
    + cbn. apply le_n_S, M. inversion Ea. exists a. auto.
Qed.

Lemma cut_exists old : old <> [] -> forall s, exists parts, cut old s parts.
Proof.
  intros N s. remember (length s) as n eqn:En. assert (L : length s <= n) by lia. clear En.
  revert s L. induction n as [|n IH]; intros s L.
  - destruct s; [|cbn in L; lia]. exists [[]]. constructor. intros b [a E].
    apply N. destruct b; [|discriminate]. destruct old; auto; discriminate.
  - destruct (contains s old) eqn:E.
    + destruct (first_occurrence old s E) as (part & r & -> & M).
      destruct (IH r) as [parts Hp].
      { rewrite !app_length in L. assert (length old <> 0) by (destruct old; [congruence|discriminate]). lia. }
      exists (part :: parts). constructor; auto.
    + exists [s]. constructor. intros b H. assert (contains s old = true) by (apply contains_spec; eauto). congruence.
Qed.

(** ** Data names *)
Lemma tokens_prefix sep part x y :
  (forall m cur, tokens sep m cur x = tokens sep m cur y) ->
  forall m cur, tokens sep m cur (part ++ x) = tokens sep m cur (part ++ y).
Proof.
  intros H. induction part as [|c part IH]; intros m cur; auto. cbn. rewrite !IH. auto.
Qed.

Lemma tokens_slashes sep parts : sep "/"%char = true -> forall m cur,
  tokens sep m cur (joined slashes parts) = tokens sep m cur (joined slash parts).
Proof.
  intros S. induction parts as [|part parts IH]; intros m cur; auto.
  destruct parts as [|q parts]; auto.
  rewrite !(joined_cons _ part) by discriminate. apply tokens_prefix. clear m cur.
  intros m cur. change slashes with ["/"%char; "/"%char] at 1. change slash with ["/"%char] at 1.
  cbn [app tokens]. rewrite S. destruct m; rewrite IH; auto.
Qed.

Lemma slashes_not_nil : slashes <> [].
Proof. discriminate. Qed.

Lemma split_replace s : split (replace s slashes slash) slash = split s slash.
Proof.
  destruct (cut_exists slashes ltac:(discriminate) s) as [parts C].
  change (replace s slashes slash) with (replace_loop slashes slash 0 s).
  rewrite (cut_replace _ _ _ _ slashes_not_nil C), (cut_joined _ _ _ C).
  unfold split. rewrite tokens_slashes; auto.
Qed.

Lemma last_app (a b : text) d : b <> [] -> last (a ++ b) d = last b d.
Proof.
  intros N. induction a as [|x a IH]; auto. cbn [app]. destruct (a ++ b) eqn:E.
  - destruct a; [cbn in E; congruence|discriminate].
  - cbn [last]. auto.
Qed.

Definition no_end (s : text) : Prop := last s "x"%char <> "/"%char.

Lemma no_end_replace s : no_end s -> no_end (replace s slashes slash).
Proof.
  destruct (cut_exists slashes ltac:(discriminate) s) as [parts C].
  change (replace s slashes slash) with (replace_loop slashes slash 0 s).
  rewrite (cut_replace _ _ _ _ slashes_not_nil C), (cut_joined _ _ _ C).
  generalize (cut_not_nil _ _ _ C). clear C s. unfold no_end.
  induction parts as [|part parts IH]; intros N; [congruence|].
  destruct parts as [|q parts]; auto.
  rewrite !(joined_cons _ part) by discriminate.
  specialize (IH ltac:(discriminate)).
  assert (Na : forall r, slashes ++ r <> []) by (intros r; discriminate).
  assert (Nb : forall r, slash ++ r <> []) by (intros r; discriminate).
  rewrite (last_app part) by apply Na. rewrite (last_app part) by apply Nb.
  destruct (joined slash (q :: parts)) as [|c r] eqn:E.
  - intros H. exfalso. apply H. destruct parts as [|q2 parts].
    + cbn in E. subst q. reflexivity.
    + exfalso. rewrite joined_cons in E by discriminate. destruct q; discriminate.
  - rewrite (last_app slash) by discriminate. intros H. apply IH.
    destruct (joined slashes (q :: parts)) as [|c' r'] eqn:E'; [discriminate|].
    rewrite last_app in H by discriminate. auto.
Qed.

Lemma length_joined parts : parts <> [] ->
  length (joined slash parts) + length parts - 1 = length (joined slashes parts).
Proof.
  induction parts as [|part parts IH]; intros N; [congruence|].
  destruct parts as [|q parts]; [cbn; lia|].
  rewrite !(joined_cons _ part) by discriminate. rewrite !app_length.
  specialize (IH ltac:(discriminate)). cbn [length slash slashes lit list_ascii_of_string] in *. lia.
Qed.

Lemma length_replace s : contains s slashes = true -> length (replace s slashes slash) < length s.
Proof.
  intros H. destruct (cut_exists slashes ltac:(discriminate) s) as [parts C].
  change (replace s slashes slash) with (replace_loop slashes slash 0 s).
  rewrite (cut_replace _ _ _ _ slashes_not_nil C), (cut_joined _ _ _ C).
  generalize (length_joined parts (cut_not_nil _ _ _ C)).
  assert (length parts >= 2); [|lia].
  destruct C as [s C|part s parts M C].
  - exfalso. apply contains_spec in H as [b H]. apply (C b H).
  - apply cut_not_nil in C. destruct parts; [congruence|cbn; lia].
Qed.

Lemma single_slashes_spec fuel : forall s, length s <= fuel -> no_end s -> exists r,
  single_slashes fuel s = Some r /\ split r slash = split s slash /\ no_end r /\ contains r slashes = false.
Proof.
  induction fuel as [|fuel IH]; intros s L N; cbn [single_slashes].
  - destruct s; [|cbn in L; lia]. cbn. exists []. auto.
  - destruct (contains s slashes) eqn:E.
    + destruct (IH (replace s slashes slash)) as (r & H1 & H2 & H3 & H4).
      * apply length_replace in E. lia.
      * apply no_end_replace; auto.
      * exists r. rewrite H2, split_replace. auto.
    + exists s. auto.
Qed.

Lemma slash_separators c : separators slash c <-> c = "/"%char.
Proof.
  unfold separators. split.
  - intros [[_ [<-|[]]]|[H _]]; [auto|discriminate].
  - intros ->. left. split; [discriminate|cbn; auto].
Qed.

(** Without double slashes and slashes at the end. *)
Lemma separated_joined s ws : separated (fun c => c = "/"%char) s ws ->
  contains s slashes = false -> no_end s -> s = joined slash ws \/ s = slash ++ joined slash ws.
Proof.
  assert (Two : forall a b, contains (a ++ "/"%char :: "/"%char :: b) slashes = true).
  { intros a b. apply contains_spec. exists a, b. reflexivity. }
  assert (Before : forall (before t : text), all (fun c => c = "/"%char) before ->
    contains (before ++ t) slashes = false -> before = [] \/ before = slash).
  { intros before t B C. destruct before as [|c before]; auto. right. rewrite (B c) by (cbn; auto).
    destruct before as [|d before]; auto. exfalso.
    rewrite (B c), (B d) in C by (cbn; auto). generalize (Two [] (before ++ t)). cbn [app] in *. congruence. }
  intros H. induction H as [before B|before w after B N W A|before w d s ws B N W D Nw H IH]; intros C E.
  - left. destruct before as [|c before] using rev_ind; auto. exfalso. apply E. unfold no_end in *.
    rewrite last_app by discriminate. cbn. apply B, in_or_app; cbn; auto.
  - assert (after = []) as ->.
    { destruct after as [|c after _] using rev_ind; auto. exfalso. apply E. unfold no_end.
      rewrite !app_assoc, last_app by discriminate. cbn. apply A, in_or_app; cbn; auto. }
    rewrite app_nil_r in *. cbn [joined]. destruct (Before before w B C) as [->| ->]; auto.
  - rewrite joined_cons by auto. subst d.
    assert (C2 : contains s slashes = false).
    { destruct (contains s slashes) eqn:E2; auto. exfalso. apply contains_spec in E2 as (b & a & ->).
      apply not_true_iff_false in C. apply C. apply contains_spec. exists (before ++ w ++ "/"%char :: b), a. rewrite <- !app_assoc. cbn.
      reflexivity. }
    assert (Ns : s <> []).
    { intros ->. inversion H; subst; auto. destruct before0; [destruct w0; [congruence|discriminate]|discriminate].
      destruct before0; [destruct w0; [congruence|discriminate]|discriminate]. }
    assert (E2 : no_end s).
    { unfold no_end in *. intros E2. apply E. rewrite last_app by (destruct w; discriminate).
      rewrite last_app by discriminate. change ("/"%char :: s) with (["/"%char] ++ s).
      rewrite last_app by auto. auto. }
    assert (S : s = joined slash ws).
    { destruct (IH C2 E2) as [|E3]; auto. exfalso. rewrite E3 in C.
      change (slash ++ joined slash ws) with ("/"%char :: joined slash ws) in C.
      rewrite app_assoc, Two in C. discriminate. }
    rewrite <- S. destruct (Before before (w ++ "/"%char :: s) B C) as [->| ->]; auto.
Qed.

Lemma before_colon_spec s : forall a b, before_colon s = (a, b) ->
  s = a ++ b /\ ~ In colon a /\ (b = [] \/ exists r, b = colon :: r).
Proof.
  induction s as [|c s IH]; cbn; intros a b E.
  - inversion E; subst. auto.
  - destruct (Ascii.eqb c colon) eqn:Ec.
    + inversion E; subst. apply Ascii.eqb_eq in Ec. subst. split; auto. split; eauto.
    + destruct (before_colon s) as [a' b']. inversion E; subst. destruct (IH a' b eq_refl) as (-> & H1 & H2).
      split; auto. split; auto. intros [->|Hc]; auto. rewrite Ascii.eqb_refl in Ec. discriminate.
Qed.

Lemma before_colon_app a : forall b, ~ In colon a -> (b = [] \/ exists r, b = colon :: r) ->
  before_colon (a ++ b) = (a, b).
Proof.
  induction a as [|c a IH]; intros b N B; cbn.
  - destruct B as [->|[r ->]]; auto.
  - destruct (Ascii.eqb c colon) eqn:Ec.
    + apply Ascii.eqb_eq in Ec. exfalso. apply N; cbn; auto.
    + rewrite IH; auto. intros H; apply N; cbn; auto.
Qed.

Lemma strip_no_end s : no_end (strip_end s slash).
Proof.
  unfold no_end. destruct (strip_end_spec s slash) as [_ H].
  destruct (strip_end s slash) as [|c r _] using rev_ind; [discriminate|].
  rewrite last_app by discriminate. cbn. intros ->. apply (H _ _ eq_refl). cbn; auto.
Qed.

Lemma separated_after p s b ws : all p b -> separated p s ws -> separated p (s ++ b) ws.
Proof.
  intros B H. induction H as [before B1|before w after B1 N W A|before w d s ws B1 N W D Nw H IH].
  - constructor. intros c Hc. apply in_app_or in Hc as [Hc|Hc]; auto.
  - rewrite <- !app_assoc. constructor; auto. intros c Hc. apply in_app_or in Hc as [Hc|Hc]; auto.
  - rewrite <- !app_assoc. cbn. constructor; auto.
Qed.

Lemma split_strip_end s : split (strip_end s slash) slash = split s slash.
Proof.
  symmetry. apply split_spec. destruct (strip_end_spec s slash) as [(b & E & B) _].
  rewrite E at 1. apply separated_after.
  - intros c Hc. apply slash_separators. destruct (B c Hc) as [<-|[]]; auto.
  - apply split_spec. auto.
Qed.

Lemma strip_end_length s cs : length (strip_end s cs) <= length s.
Proof.
  destruct (strip_end_spec s cs) as [(b & E & B) _]. rewrite E at 2. rewrite app_length. lia.
Qed.

(** The path of a data name. *)
Lemma data_path data : exists path,
  single_slashes (length data) (strip_end data slash) = Some path /\
  match path with
  | [] => slash
  | _ => if starts_with path slash then path else slash ++ path
  end = slash ++ joined slash (split data slash).
Proof.
  destruct (single_slashes_spec (length data) (strip_end data slash)) as (path & H1 & H2 & H3 & H4).
  - apply strip_end_length.
  - apply strip_no_end.
  - exists path. split; auto. rewrite split_strip_end in H2.
    assert (S : separated (fun c => c = "/"%char) path (split data slash)).
    { eapply separated_iff; [apply slash_separators|]. apply split_spec. auto. }
    assert (W : forall c r, joined slash (split data slash) = c :: r -> c <> "/"%char).
    { intros c r E. assert (S2 : separated (separators slash) data (split data slash)) by (apply split_spec; auto).
      assert (F : forall w, In w (split data slash) -> w <> [] /\ all (fun c => ~ separators slash c) w).
      { clear - S2. induction S2; intros x Hx; cbn in Hx; [tauto| |].
        - destruct Hx as [<-|[]]; auto.
        - destruct Hx as [<-|Hx]; auto. }
      destruct (split data slash) as [|w ws]; [discriminate|]. destruct (F w (or_introl eq_refl)) as [F1 F2].
      destruct w as [|x w]; [congruence|]. rewrite joined_concat in E. inversion E; subst.
      intros ->. apply (F2 "/"%char); [cbn; auto|]. apply slash_separators; auto. }
    destruct (separated_joined path _ S H4 H3) as [E|E].
    + rewrite <- E. destruct path as [|c path]; auto. cbn [starts_with slash lit list_ascii_of_string].
      destruct (Ascii.eqb "/" c) eqn:Ec; auto. apply Ascii.eqb_eq in Ec. subst c. exfalso. eapply W; eauto.
    + rewrite E. change (slash ++ joined slash (split data slash)) with ("/"%char :: joined slash (split data slash)).
      cbn [starts_with slash lit list_ascii_of_string]. rewrite Ascii.eqb_refl.
      destruct (joined _ _); auto.
Qed.
