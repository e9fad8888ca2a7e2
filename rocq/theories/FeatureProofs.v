(** * Proofs about features *)
From Coq Require Import String Ascii List Bool Arith Lia.
From Verif Require Import StringModel StringSpec StringProofs FeatureModel FeatureSpec.
Import ListNotations.

(** ** The order of names *)
Lemma before_precedes a : forall b, before a b = true <-> precedes a b.
Proof.
  induction a as [|c a IH]; intros [|d b]; cbn [before].
  - split; [discriminate|]. intros [(c & r & H)|(co & c & d & ra & rb & H & _)]; destruct co || idtac; discriminate.
  - split; auto. intros _. left. exists d, b. auto.
  - split; [discriminate|]. intros [(c' & r & H)|(co & c' & d & ra & rb & _ & H & _)]; [discriminate|].
    destruct co; discriminate.
  - destruct (nat_of_ascii c <? nat_of_ascii d) eqn:L.
    + apply Nat.ltb_lt in L. split; auto. intros _. right. exists [], c, d, a, b. split; [reflexivity|split; [reflexivity|exact L]].
    + apply Nat.ltb_ge in L. destruct (nat_of_ascii d <? nat_of_ascii c) eqn:G.
      * apply Nat.ltb_lt in G. split; [discriminate|].
        intros [(c' & r & H)|([|x co] & c' & d' & ra & rb & H1 & H2 & H3)].
        -- injection H as -> _. lia.
        -- injection H1 as -> ->. injection H2 as -> ->. lia.
        -- injection H1 as -> ->. injection H2 as -> ->. lia.
      * apply Nat.ltb_ge in G. assert (c = d) as <-.
        { rewrite <- (ascii_nat_embedding c), <- (ascii_nat_embedding d). f_equal. lia. }
        rewrite IH. split.
        -- intros [(c' & r & ->)|(co & c' & d' & ra & rb & -> & -> & H3)].
           ++ left. exists c', r. auto.
           ++ right. exists (c :: co), c', d', ra, rb. auto.
        -- intros [(c' & r & H)|([|x co] & c' & d' & ra & rb & H1 & H2 & H3)].
           ++ injection H as ->. left. exists c', r. auto.
           ++ injection H1 as -> ->. injection H2 as -> ->. lia.
           ++ injection H1 as -> ->. injection H2 as ->. right. exists co, c', d', ra, rb. auto.
Qed.

Lemma before_same a : before a a = false.
Proof. induction a as [|c a IH]; cbn [before]; auto. rewrite Nat.ltb_irrefl. auto. Qed.

Lemma before_trans a : forall b c, before a b = true -> before b c = true -> before a c = true.
Proof.
  induction a as [|x a IH]; intros [|y b] [|z c]; cbn [before]; auto; try discriminate.
  destruct (Nat.ltb_spec (nat_of_ascii x) (nat_of_ascii y)) as [L1|L1];
  destruct (Nat.ltb_spec (nat_of_ascii y) (nat_of_ascii x)) as [L2|L2]; try lia; try discriminate;
  destruct (Nat.ltb_spec (nat_of_ascii y) (nat_of_ascii z)) as [L3|L3];
  destruct (Nat.ltb_spec (nat_of_ascii z) (nat_of_ascii y)) as [L4|L4]; try lia; try discriminate;
  destruct (Nat.ltb_spec (nat_of_ascii x) (nat_of_ascii z)) as [L5|L5];
  destruct (Nat.ltb_spec (nat_of_ascii z) (nat_of_ascii x)) as [L6|L6]; try lia; auto; eauto.
Qed.

Lemma before_neither a : forall b, before a b = false -> before b a = false -> a = b.
Proof.
  induction a as [|x a IH]; intros [|y b]; cbn [before]; auto; try discriminate.
  destruct (Nat.ltb_spec (nat_of_ascii x) (nat_of_ascii y)) as [L1|L1];
  destruct (Nat.ltb_spec (nat_of_ascii y) (nat_of_ascii x)) as [L2|L2]; try lia; try discriminate.
  intros H1 H2. f_equal; auto. rewrite <- (ascii_nat_embedding x), <- (ascii_nat_embedding y).
  f_equal. lia.
Qed.

Lemma ordered_cons n l : ordered (n :: l) <-> ordered l /\ forall m, In m l -> before n m = true.
Proof.
  revert n. induction l as [|m l IH]; intros n; split.
  - intros _. split; [constructor|intros m []].
  - constructor.
  - intros H. inversion H as [| |n' m' l' P O]; subst. split; auto. apply IH in O as [O1 O2].
    apply before_precedes in P. intros x [<-|Hx]; auto. eapply before_trans; eauto.
  - intros [O H]. constructor; auto. apply before_precedes, H. cbn; auto.
Qed.

(** ** Maps *)
Section map.
  Context {V : Type}.
  Implicit Type m : list (text * V).

  Lemma find_in k v m : ordered (map fst m) -> find k m = Some v <-> In (k, v) m.
  Proof.
    induction m as [|[k' v'] m IH]; cbn [map fst find]; intros O.
    - split; [discriminate|intros []].
    - apply ordered_cons in O as [O1 O2]. specialize (IH O1).
      destruct (before k k') eqn:E.
      + split; [discriminate|]. intros [H|H].
        * injection H as -> ->. rewrite before_same in E. discriminate.
        * assert (B := O2 k (in_map fst _ _ H)). assert (T := before_trans _ _ _ E B).
          rewrite before_same in T. discriminate.
      + destruct (before k' k) eqn:E2.
        * rewrite IH. split; [right; auto|]. intros [H|H]; auto. injection H as -> ->.
          rewrite before_same in E2. discriminate.
        * rewrite (before_neither _ _ E E2) in *. split.
          -- intros H. injection H as ->. left. auto.
          -- intros [H|H]; [injection H as ->; auto|].
             assert (B := O2 k' (in_map fst _ _ H)). rewrite before_same in B. discriminate.
  Qed.

  Lemma find_none k m : ordered (map fst m) -> find k m = None <-> forall v, ~ In (k, v) m.
  Proof.
    intros O. destruct (find k m) as [v|] eqn:E.
    - apply find_in in E; auto. split; [discriminate|]. intros H. destruct (H v E).
    - split; auto. intros _ v H. apply find_in in H; auto. congruence.
  Qed.

  Lemma insert_spec k v m : ordered (map fst m) -> forall r b, insert k v m = (r, b) ->
    (b = false /\ r = m /\ find k m <> None) \/
    (b = true /\ find k m = None /\ ordered (map fst r) /\ forall p, In p r <-> In p m \/ p = (k, v)).
  Proof.
    induction m as [|[k' v'] m IH]; cbn [map fst find insert]; intros O r b I.
    - injection I as <- <-. right. repeat split; auto; [constructor|intros [<-|[]]; auto|].
      intros [[]| ->]; cbn; auto.
    - apply ordered_cons in O as [O1 O2]. destruct (before k k') eqn:E.
      + injection I as <- <-. right. repeat split; auto.
        * change (ordered (k :: k' :: map fst m)). apply ordered_cons. split; [apply ordered_cons; auto|].
          intros x [<-|H]; auto. eapply before_trans; eauto.
        * intros [<-|H]; auto.
        * intros [H|<-]; cbn in *; tauto.
      + destruct (before k' k) eqn:E2.
        * destruct (insert k v m) as [r' b'] eqn:I2. injection I as <- <-.
          destruct (IH O1 r' b' eq_refl) as [(-> & -> & N)|(-> & N & O3 & P)]; [left; auto|].
          right. repeat split; auto.
          -- cbn [map fst]. apply ordered_cons. split; auto. intros x Hx.
             apply in_map_iff in Hx as [[x' w] [<- Hx]]. apply P in Hx as [Hx|Hx].
             ++ apply O2. apply (in_map fst) in Hx. auto.
             ++ injection Hx as -> ->. auto.
          -- intros [<-|H]; [cbn; auto|]. apply P in H as [H|H]; cbn; auto.
          -- intros [[<-|H]| ->]; cbn; auto; right; apply P; auto.
        * injection I as <- <-. left. repeat split; auto. discriminate.
  Qed.
End map.

(** ** Paths *)
Lemma names_relative ns : Forall name ns -> names (relative ns) = ns.
Proof.
  intros H. unfold names, relative. apply split_spec.
  apply (separated_iff (fun c => c = "/"%char)); [intros c; rewrite slash_separators; tauto|].
  apply joined_separated; [discriminate|intros c [<-|[]]; auto|].
  intros w Hw. rewrite Forall_forall in H. destruct (H w Hw) as [H1 H2]. split; auto.
  intros c Hc ->. auto.
Qed.

Lemma names_absolute ns : Forall name ns -> names (absolute ns) = ns.
Proof.
  intros H. apply split_spec, separated_cons.
  - apply slash_separators. auto.
  - apply split_spec, names_relative; auto.
Qed.

Lemma joined_last init n : init <> [] -> joined slash (init ++ [n]) = joined slash init ++ slash ++ n.
Proof.
  induction init as [|x init IH]; [congruence|]. intros _. destruct init as [|y init]; auto.
  cbn [app]. change (x :: y :: init ++ [n]) with (x :: (y :: init) ++ [n]).
  rewrite !joined_cons by (destruct init; discriminate). rewrite IH by discriminate.
  rewrite <- !app_assoc. auto.
Qed.

Lemma last_part_end n : ~ In "/"%char n -> forall cur, last_part cur n = cur ++ n.
Proof.
  induction n as [|c n IH]; intros H cur; cbn; [rewrite app_nil_r; auto|].
  destruct (Ascii.eqb_spec c "/") as [->|N]; [cbn in H; tauto|].
  rewrite IH by (cbn in H; tauto). rewrite <- app_assoc. auto.
Qed.

Lemma last_part_slash x n : ~ In "/"%char n -> forall cur, last_part cur (x ++ slash ++ n) = n.
Proof.
  intros H. induction x as [|c x IH]; intros cur.
  - cbn. rewrite last_part_end; auto.
  - cbn. destruct (Ascii.eqb c "/"); apply IH.
Qed.

Lemma up_to_none n : ~ In "/"%char n -> up_to_last_part n = [].
Proof.
  destruct n as [|c n]; auto. intros H. cbn [up_to_last_part].
  destruct (existsb (Ascii.eqb "/") (c :: n)) eqn:E; auto.
  apply existsb_exists in E as (d & D1 & D2). apply Ascii.eqb_eq in D2. subst d. contradiction.
Qed.

Lemma up_to_slash x n : ~ In "/"%char n -> up_to_last_part (x ++ slash ++ n) = x ++ slash.
Proof.
  intros H. induction x as [|c x IH].
  - cbn. f_equal. apply up_to_none; auto.
  - cbn [app up_to_last_part].
    assert (E : existsb (Ascii.eqb "/") (c :: x ++ slash ++ n) = true).
    { apply existsb_exists. exists "/"%char. split; auto. right. apply in_or_app. cbn; auto. }
    rewrite E. f_equal. auto.
Qed.

Lemma strip_end_slash x c : c <> "/"%char -> strip_end ((x ++ [c]) ++ slash) slash = x ++ [c].
Proof.
  intros N. unfold strip_end. rewrite rev_app_distr. cbn [rev app slash lit list_ascii_of_string].
  cbn [strip_begin one_of existsb]. rewrite Ascii.eqb_refl. cbn [orb].
  rewrite rev_app_distr. cbn [rev app strip_begin one_of existsb].
  destruct (Ascii.eqb_spec c "/"); [contradiction|]. cbn [orb rev]. rewrite rev_involutive. auto.
Qed.

Lemma joined_end ns : ns <> [] -> Forall name ns -> exists x c, joined slash ns = x ++ [c] /\ c <> "/"%char.
Proof.
  intros N H. destruct ns as [|n init _] using rev_ind; [congruence|].
  apply Forall_app in H as [_ H]. inversion H as [|? ? [N1 N2] _]; subst.
  destruct n as [|c n _] using rev_ind; [congruence|].
  assert (C : c <> "/"%char) by (intros ->; apply N2, in_or_app; cbn; auto).
  destruct init as [|y init].
  - exists n, c. auto.
  - rewrite joined_last by discriminate. exists (joined slash (y :: init) ++ slash ++ n), c.
    rewrite <- !app_assoc. auto.
Qed.

Lemma filename_written init n t : name n -> written (init ++ [n]) t -> filename t = n.
Proof.
  intros [_ N] W. unfold filename. inversion W as [ns E1 E2|ns L E1 E2]; subst.
  - destruct init as [|x init]; [cbn; apply (last_part_end n N [])|].
    unfold relative. rewrite joined_last by discriminate. apply last_part_slash; auto.
  - unfold absolute. destruct init as [|x init]; [cbn in L; lia|].
    rewrite joined_last by discriminate. rewrite app_assoc. apply last_part_slash; auto.
Qed.

Lemma parent_slash x c n : c <> "/"%char -> ~ In "/"%char n ->
  parent_path ((x ++ [c]) ++ slash ++ n) = x ++ [c].
Proof.
  intros C N. unfold parent_path. rewrite up_to_slash by auto.
  assert (S := strip_end_slash x c C).
  destruct ((x ++ [c]) ++ slash) as [|d r]; [destruct x; discriminate|].
  rewrite S. destruct (x ++ [c]) eqn:E; [destruct x; discriminate|auto].
Qed.

Lemma parent_exists x n : ~ In "/"%char n -> parent_path (x ++ slash ++ n) <> [].
Proof.
  intros N. unfold parent_path. rewrite up_to_slash by auto.
  destruct (x ++ slash) eqn:E; [destruct x; discriminate|]. destruct (strip_end _ _); discriminate.
Qed.

Lemma parent_none n : ~ In "/"%char n -> parent_path n = [].
Proof. intros N. unfold parent_path. rewrite up_to_none; auto. Qed.

Lemma parent_written init n t : Forall name init -> name n -> written (init ++ [n]) t ->
  (init = [] -> t = n /\ parent_path t = []) /\
  (init <> [] -> exists c p, parent_path t = c :: p /\ names (c :: p) = init /\
     ((exists m, init = [m] /\ c :: p = m) \/ parent_path (c :: p) <> [])).
Proof.
  intros F [N0 N] W. inversion W as [ns E1 E2|ns L E1 E2]; subst.
  - split.
    + intros ->. split; auto. apply parent_none; auto.
    + intros Ni. unfold relative. rewrite joined_last by auto.
      destruct (joined_end init Ni F) as (x & c & E & C).
      rewrite E, parent_slash by auto.
      assert (Nm : names (x ++ [c]) = init) by (rewrite <- E; apply names_relative; auto).
      assert (P : (exists m, init = [m] /\ x ++ [c] = m) \/ parent_path (x ++ [c]) <> []).
      { destruct init as [|m init _] using rev_ind; [congruence|].
        destruct init as [|y init]; [left; exists m; auto|]. right. rewrite <- E.
        rewrite joined_last by discriminate. apply Forall_app in F as [F1 F2].
        inversion F2 as [|? ? [_ M] _]; subst. apply parent_exists; auto. }
      destruct (x ++ [c]) as [|d p] eqn:E2; [destruct x; discriminate|]. exists d, p. auto.
  - split; [intros ->; cbn in L; lia|]. intros Ni. unfold absolute.
    rewrite joined_last by auto.
    destruct (joined_end init Ni F) as (x & c & E & C). rewrite E.
    assert (Pa : parent_path (slash ++ (x ++ [c]) ++ slash ++ n) = (slash ++ x) ++ [c]).
    { rewrite <- (parent_slash (slash ++ x) c n) by auto. rewrite <- !app_assoc. auto. }
    rewrite Pa.
    assert (Nm : names ((slash ++ x) ++ [c]) = init).
    { rewrite <- app_assoc, <- E. apply names_absolute; auto. }
    assert (P : parent_path ((slash ++ x) ++ [c]) <> []).
    { destruct init as [|m init _] using rev_ind; [congruence|].
      apply Forall_app in F as [F1 F2]. inversion F2 as [|? ? [_ M] _]; subst.
      rewrite <- app_assoc, <- E. destruct init as [|y init].
      - apply (parent_exists [] m M).
      - rewrite joined_last by discriminate. rewrite app_assoc. apply parent_exists; auto. }
    destruct ((slash ++ x) ++ [c]) as [|d p] eqn:E2; [discriminate|]. exists d, p. auto.
Qed.

Lemma parent_root n : name n -> parent_path (absolute [n]) = slash.
Proof.
  intros [_ N]. unfold absolute, parent_path. cbn [joined].
  change (slash ++ n) with ([] ++ slash ++ n). rewrite up_to_slash by auto. reflexivity.
Qed.

(** ** Features *)
Section feature.
  Context {A : Type}.
  Implicit Types (h : heap A) (f g : addr).

  Lemma leads_fun h : proper h -> forall f ns g, leads h f ns g -> forall g', leads h f ns g' -> g = g'.
  Proof.
    intros P f ns g H. induction H as [f|f n g ns x C H IH]; intros g' H'.
    - inversion H'; auto.
    - inversion H' as [|? ? g2 ? ? C2 H2]; subst. apply IH.
      destruct (P f) as [P1 _]. apply (find_in n) in C; auto. apply (find_in n) in C2; auto.
      assert (g = g2) as -> by congruence. auto.
  Qed.

  Lemma feature_at_leads h : proper h -> forall ns f g, ns <> [] ->
    feature_at h f ns = Some g <-> leads h f ns g.
  Proof.
    intros P. induction ns as [|n ns IH]; intros f g N; [congruence|]. clear N. cbn [feature_at].
    destruct (P f) as [P1 _]. destruct (find n (features (h f))) as [x|] eqn:E.
    - assert (C := E). apply find_in in C; auto. destruct ns as [|m ns].
      + split.
        * intros H. injection H as ->. econstructor; [exact C|constructor].
        * intros H. inversion H as [|? ? g2 ? ? C2 H2]; subst. inversion H2; subst.
          apply (find_in n) in C2; auto. congruence.
      + rewrite IH by discriminate. split.
        * intros H. econstructor; eauto.
        * intros H. inversion H as [|? ? g2 ? ? C2 H2]; subst. apply (find_in n) in C2; auto.
          assert (x = g2) as -> by congruence. auto.
    - split; [discriminate|]. intros H. inversion H as [|? ? g2 ? ? C2 H2]; subst.
      apply (find_in n) in C2; auto. congruence.
  Qed.

  Lemma feature_at_none h : proper h -> forall ns f, ns <> [] ->
    feature_at h f ns = None <-> forall g, ~ leads h f ns g.
  Proof.
    intros P ns f N. destruct (feature_at h f ns) as [g|] eqn:E.
    - apply feature_at_leads in E; auto. split; [discriminate|]. intros H. destruct (H g E).
    - split; auto. intros _ g L. apply feature_at_leads in L; auto. congruence.
  Qed.

  Lemma contains_spec' h f ns t : proper h -> Forall name ns -> ns <> [] ->
    t = relative ns \/ t = absolute ns ->
    contains_feature h f t = match feature_at h f ns with Some _ => true | None => false end.
  Proof.
    intros P F N T. unfold contains_feature, feature.
    assert (Nm : names t = ns).
    { destruct T as [-> | ->]; [apply names_relative|apply names_absolute]; auto. }
    destruct (parent_path t) eqn:E; [|rewrite Nm; auto].
    destruct ns as [|n init _] using rev_ind; [congruence|]. apply Forall_app in F as [F1 F2].
    inversion F2 as [|? ? Nn _]; subst. destruct init as [|y init].
    - cbn [app] in *. destruct T as [-> | ->]; [|rewrite parent_root in E by auto; discriminate].
      cbn. destruct (find n (features (h f))); auto.
    - assert (W : written ((y :: init) ++ [n]) t).
      { destruct T as [-> | ->]; constructor. rewrite app_length. cbn. lia. }
      destruct (parent_written _ _ _ F1 Nn W) as [_ H].
      destruct H as (c & p & H & _); [discriminate|congruence].
  Qed.

  Lemma parent_spec debug h f init n t : proper h -> Forall name init -> name n ->
    written (init ++ [n]) t ->
    (forall g, leads h f init g -> parent_feature debug h f t = Done (Some g)) /\
    ((forall g, ~ leads h f init g) ->
       parent_feature debug h f t = if debug then Aborted else Done None).
  Proof.
    intros P F Nn W. destruct (parent_written _ _ _ F Nn W) as [H1 H2]. unfold parent_feature.
    destruct init as [|y init].
    - destruct (H1 eq_refl) as [-> E]. rewrite E. split.
      + intros g L. inversion L; subst. destruct debug; auto.
      + intros H. destruct (H f). constructor.
    - destruct H2 as (c & p & E & Nm & Q); [discriminate|]. rewrite E.
      assert (C : contains_feature h f (c :: p) =
        match feature_at h f (y :: init) with Some _ => true | None => false end).
      { unfold contains_feature, feature. destruct Q as [(m & Q1 & Q2)|Q].
        - rewrite Nm. injection Q1 as -> ->. rewrite Q2. inversion F as [|? ? [_ Hm] _]; subst.
          unfold parent_path. rewrite up_to_none by auto. cbn.
          destruct (find (c :: p) (features (h f))); auto.
        - destruct (parent_path (c :: p)); [congruence|]. rewrite Nm. auto. }
      rewrite C. unfold feature. rewrite Nm. split.
      + intros g L. apply feature_at_leads in L; auto; [|discriminate]. rewrite L. destruct debug; auto.
      + intros H. apply feature_at_none in H; auto; [|discriminate]. rewrite H. destruct debug; auto.
  Qed.

  Lemma parent_root_spec debug h f n : name n ->
    parent_feature debug h f (absolute [n]) = if debug then Aborted else Done None.
  Proof.
    intros N. unfold parent_feature. rewrite parent_root by auto. destruct debug; reflexivity.
  Qed.

  Lemma attribute_spec debug h f init n t : proper h -> Forall name init -> name n ->
    written (init ++ [n]) t ->
    (forall g a, leads h f init g -> has h g n a -> attribute debug h f t = Done a) /\
    (forall g, leads h f init g -> (forall a, ~ has h g n a) -> attribute debug h f t = Out_of_range) /\
    ((forall g, ~ leads h f init g) -> attribute debug h f t = fatal debug).
  Proof.
    intros P F Nn W. destruct (parent_spec debug h f init n t P F Nn W) as [H1 H2].
    unfold attribute. rewrite (filename_written init n t Nn W). repeat split.
    - intros g a L Ha. rewrite (H1 g L). cbn. destruct (P g) as [_ P2].
      apply (find_in n) in Ha; auto. rewrite Ha. auto.
    - intros g L Ha. rewrite (H1 g L). cbn. destruct (P g) as [_ P2].
      apply (find_none n) in Ha; auto. rewrite Ha. auto.
    - intros L. rewrite (H2 L). destruct debug; auto.
  Qed.

  Lemma decide_leads h f ns : proper h -> (exists g, leads h f ns g) \/ forall g, ~ leads h f ns g.
  Proof.
    intros P. destruct ns as [|n ns]; [left; exists f; constructor|].
    destruct (feature_at h f (n :: ns)) as [g|] eqn:E.
    - left. exists g. apply feature_at_leads in E; auto. discriminate.
    - right. apply feature_at_none; auto. discriminate.
  Qed.

  Lemma decide_has h f n : proper h -> (exists a, has h f n a) \/ forall a, ~ has h f n a.
  Proof.
    intros P. destruct (P f) as [_ P2]. destruct (find n (attributes (h f))) as [a|] eqn:E.
    - left. exists a. apply find_in; auto.
    - right. apply find_none; auto.
  Qed.

  Lemma decide_child h f n : proper h -> (exists g, child h f n g) \/ forall g, ~ child h f n g.
  Proof.
    intros P. destruct (P f) as [P1 _]. destruct (find n (features (h f))) as [a|] eqn:E.
    - left. exists a. apply find_in; auto.
    - right. apply find_none; auto.
  Qed.

  Lemma contains_attribute_top debug h f n : proper h -> name n ->
    (forall a, has h f n a -> contains_attribute debug h f n = Done true) /\
    ((forall a, ~ has h f n a) -> contains_attribute debug h f n = Done false).
  Proof.
    intros P [_ N]. unfold contains_attribute, parent_path. rewrite up_to_none by auto.
    destruct (P f) as [_ P2]. split.
    - intros a Ha. apply (find_in n) in Ha; auto. rewrite Ha. auto.
    - intros Ha. apply (find_none n) in Ha; auto. rewrite Ha. auto.
  Qed.

  Lemma contains_attribute_nested debug h f init n t : proper h -> Forall name init -> init <> [] ->
    name n -> written (init ++ [n]) t ->
    contains_attribute debug h f t = bind (attribute debug h f t) (fun _ => Done true).
  Proof.
    intros P F Ni Nn W. destruct (parent_written _ _ _ F Nn W) as [_ H2].
    destruct (H2 Ni) as (c & p & E & _). unfold contains_attribute. rewrite E. auto.
  Qed.

  Lemma set_same h g x : set h g x g = x.
  Proof. unfold set. rewrite Nat.eqb_refl. auto. Qed.
  Lemma set_other h g x y : y <> g -> set h g x y = h y.
  Proof. intros N. unfold set. apply Nat.eqb_neq in N. rewrite N. auto. Qed.

  Lemma leads_snoc h init n : forall f x,
    leads h f (init ++ [n]) x <-> exists g, leads h f init g /\ child h g n x.
  Proof.
    induction init as [|m init IH]; intros f x; cbn [app]; split.
    - intros L. inversion L as [|? ? g ? ? C L2]; subst. inversion L2; subst.
      exists f. split; auto. constructor.
    - intros (g & L & C). inversion L; subst. econstructor; eauto. constructor.
    - intros L. inversion L as [|? ? g ? ? C L2]; subst. apply IH in L2 as (y & L2 & C2).
      exists y. split; auto. econstructor; eauto.
    - intros (g & L & C). inversion L as [|? ? g2 ? ? C2 L2]; subst. econstructor; eauto.
      apply IH. eauto.
  Qed.

  Lemma contains_child h f init n t g : proper h -> Forall name init -> name n ->
    t = relative (init ++ [n]) \/ t = absolute (init ++ [n]) -> leads h f init g ->
    (forall x, child h g n x -> contains_feature h f t = true) /\
    ((forall x, ~ child h g n x) -> contains_feature h f t = false).
  Proof.
    intros P F Nn T L.
    assert (Fa : Forall name (init ++ [n])) by (apply Forall_app; auto).
    assert (Na : init ++ [n] <> []) by (destruct init; discriminate).
    rewrite (contains_spec' h f _ t P Fa Na T). split.
    - intros x C. assert (L2 : leads h f (init ++ [n]) x) by (apply leads_snoc; eauto).
      apply feature_at_leads in L2; auto. rewrite L2. auto.
    - intros C. assert (L2 : forall x, ~ leads h f (init ++ [n]) x).
      { intros x L2. apply leads_snoc in L2 as (g' & L2 & C2).
        rewrite <- (leads_fun h P _ _ _ L _ L2) in C2. eapply C; eauto. }
      apply feature_at_none in L2; auto. rewrite L2. auto.
  Qed.

  Lemma contains_no_parent h f init n t : proper h -> Forall name init -> name n ->
    t = relative (init ++ [n]) \/ t = absolute (init ++ [n]) -> (forall g, ~ leads h f init g) ->
    contains_feature h f t = false.
  Proof.
    intros P F Nn T L.
    assert (Fa : Forall name (init ++ [n])) by (apply Forall_app; auto).
    assert (Na : init ++ [n] <> []) by (destruct init; discriminate).
    rewrite (contains_spec' h f _ t P Fa Na T).
    assert (L2 : forall x, ~ leads h f (init ++ [n]) x).
    { intros x L2. apply leads_snoc in L2 as (g' & L2 & C2). eapply L; eauto. }
    apply feature_at_none in L2; auto. rewrite L2. auto.
  Qed.

  Lemma written_cases init n t : written (init ++ [n]) t ->
    t = relative (init ++ [n]) \/ t = absolute (init ++ [n]).
  Proof. intros W. inversion W; auto. Qed.

  (** Adding to the maps of a feature. *)
  Lemma attribute_inserted h g n a r : proper h ->
    insert n a (attributes (h g)) = (r, true) ->
    attribute_added h (set h g (Node (features (h g)) r)) g n a.
  Proof.
    intros P I. destruct (P g) as [P1 P2].
    destruct (insert_spec n a _ P2 r true I) as [(E & _)|(_ & Fi & O & Q)]; [discriminate|].
    split; [|split].
    - intros x. destruct (Nat.eq_dec x g) as [->|N]; [rewrite set_same; auto|rewrite set_other; auto].
    - intros x m y. unfold child. destruct (Nat.eq_dec x g) as [->|N]; [rewrite set_same|rewrite set_other by auto]; tauto.
    - intros x m b. unfold has. destruct (Nat.eq_dec x g) as [->|N].
      + rewrite set_same. cbn. rewrite Q. split; intros [H|H]; auto.
        * injection H as -> ->. auto. * destruct H as (_ & -> & ->). auto.
      + rewrite set_other by auto. split; auto. intros [H|(E & _)]; auto. contradiction.
  Qed.

  Lemma child_inserted h g n a r : proper h ->
    insert n a (features (h g)) = (r, true) ->
    child_added h (set h g (Node r (attributes (h g)))) g n a.
  Proof.
    intros P I. destruct (P g) as [P1 P2].
    destruct (insert_spec n a _ P1 r true I) as [(E & _)|(_ & Fi & O & Q)]; [discriminate|].
    split; [|split].
    - intros x. destruct (Nat.eq_dec x g) as [->|N]; [rewrite set_same; auto|rewrite set_other; auto].
    - intros x m b. unfold child. destruct (Nat.eq_dec x g) as [->|N].
      + rewrite set_same. cbn. rewrite Q. split; intros [H|H]; auto.
        * injection H as -> ->. auto. * destruct H as (_ & -> & ->). auto.
      + rewrite set_other by auto. split; auto. intros [H|(E & _)]; auto. contradiction.
    - intros x m y. unfold has. destruct (Nat.eq_dec x g) as [->|N]; [rewrite set_same|rewrite set_other by auto]; tauto.
  Qed.

  Lemma set_unchanged h g : unchanged h (set h g (Node (features (h g)) (attributes (h g)))).
  Proof.
    intros x. unfold set. destruct (Nat.eqb_spec x g) as [->|N]; auto. destruct (h g); auto.
  Qed.

  Lemma insert_cases {V : Type} n (v : V) m : ordered (map fst m) ->
    ((exists w, In (n, w) m) -> insert n v m = (m, false)) /\
    ((forall w, ~ In (n, w) m) -> exists r, insert n v m = (r, true)).
  Proof.
    intros O. destruct (insert n v m) as [r b] eqn:I.
    destruct (insert_spec n v m O r b I) as [(-> & -> & Fi)|(-> & Fi & _)].
    - split; auto. intros H. apply find_none in H; auto. contradiction.
    - split; eauto. intros [w H]. apply find_in in H; auto. congruence.
  Qed.
End feature.
