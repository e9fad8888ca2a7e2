(** * Proofs about errors of Python *)
From Coq Require Import ZArith List Bool Arith Lia Permutation Ascii.
From Verif Require Import StringModel RefModel RefSpec RefProofs.
From Verif Require ScriptModel.
Import ListNotations.

Definition grows (s s' : python) : Prop := forall i x, is (py_objects s) i x -> is (py_objects s') i x.
Lemma grows_trans a b c : grows a b -> grows b c -> grows a c.
Proof. unfold grows; auto. Qed.

Lemma is_set h j n n' y : nth_error h j = Some (Live n y) -> forall i x, is h i x -> is (set h j (Live n' y)) i x.
Proof.
  intros E i x (m & K). destruct (Nat.eq_dec j i) as [->|D].
  - rewrite E in K. injection K as _ ->. exists n'. eapply nth_set_same; eauto.
  - exists m. rewrite nth_set_other by exact D. exact K.
Qed.

Lemma incref_counts h o j h' : counted h o -> incref h j = Ok h' -> counted h' (j :: o) /\ forall i x, is h i x -> is h' i x.
Proof.
  intros C E. assert (A : alive h j).
  { unfold incref in E. destruct (nth_error h j) as [[|n x]|] eqn:K; try discriminate. exists n, x; exact K. }
  destruct (incref_counted h h o j C A (evolves_refl h) (orderly_refl h)) as (h1 & E1 & C1 & _).
  rewrite E in E1. injection E1 as <-. split; [exact C1|]. unfold incref in E. destruct A as (n & x & A). rewrite A in E.
  injection E as <-. apply (is_set _ _ _ _ _ A).
Qed.
Lemma incref_alive h j : alive h j -> exists h', incref h j = Ok h'.
Proof. intros (n & x & A). unfold incref. rewrite A. eauto. Qed.
Lemma decref_counts h o j : counted h (j :: o) -> exists h', decref h j = Ok h' /\ counted h' o.
Proof.
  intros C. destruct (decref_counted h h o j C (evolves_refl h) (orderly_refl h)) as (h' & E & C' & _). eauto.
Qed.

Lemma fresh_counts h o x : counted h o -> items x = [] -> counted (h ++ [Live 1 x]) (length h :: o).
Proof.
  intros C I j. pose proof (C j) as Cj. unfold references in *. rewrite flat_map_app in *. cbn [flat_map cell_items].
  rewrite I. rewrite !app_nil_r. cbn [app]. rewrite number_cons.
  destruct (Nat.eq_dec (length h) j) as [<-|D].
  - rewrite nth_error_app2, Nat.sub_diag by lia. cbn.
    assert (N : nth_error h (length h) = None) by (apply nth_error_None; lia). rewrite N in Cj. lia.
  - destruct (lt_dec j (length h)) as [L|L].
    + rewrite nth_error_app1 by exact L. exact Cj.
    + assert (N : nth_error h j = None) by (apply nth_error_None; lia). rewrite N in Cj.
      assert (N' : nth_error (h ++ [Live 1 x]) j = None) by (apply nth_error_None; rewrite app_length; cbn; lia). rewrite N'. exact Cj.
Qed.

Lemma is_app h l i x : is h i x -> is (h ++ l) i x.
Proof. intros (n & E). exists n. rewrite nth_error_app1; [exact E|]. apply nth_error_Some. congruence. Qed.

(** The same except for the objects *)
Definition alike (s s' : python) : Prop := indicator s' = indicator s /\ failed s' = failed s.

(** [p] does not go wrong, except as [u] allows, and [P] holds of its result *)
Definition holds {A} (u : Prop) (P : A -> Prop) (p : res A) : Prop :=
  match p with Ok a => P a | Abort => True | Undef => u end.
Lemma holds_bind {A B} u (Q : A -> Prop) (P : B -> Prop) p f : holds u Q p -> (forall a, Q a -> holds u P (f a)) -> holds u P (bind p f).
Proof. destruct p; cbn; auto. Qed.
Lemma holds_weaken {A} u (P Q : A -> Prop) p : (forall a, P a -> Q a) -> holds u P p -> holds u Q p.
Proof. destruct p; cbn; auto. Qed.

Lemma look_alive s i x : is (py_objects s) i x -> look s i = Ok x.
Proof. intros (n & E). unfold look. rewrite E. reflexivity. Qed.
Lemma alive_is h i : alive h i -> exists x, is h i x.
Proof. intros (n & x & E). exists x, n. exact E. Qed.
Lemma held_is h o i : counted h o -> In i o -> exists x, is h i x.
Proof. intros C I. apply alive_is. eapply referenced_alive; [exact C|]. apply in_or_app. auto. Qed.
Lemma item_is h o i x j : counted h o -> is h i x -> In j (items x) -> exists y, is h j y.
Proof. intros C (n & E) I. apply alive_is. eapply referenced_alive; [exact C|]. apply in_or_app. right. eapply in_items; eauto. Qed.

Lemma get_item_holds o v n s : counted (py_objects s) o -> (forall i, v = Some i -> In i o) ->
  holds False (fun r => counted (py_objects (snd r)) (pointee (fst r) ++ o) /\ grows s (snd r) /\ indicator (snd r) = indicator s /\
     match v with
     | None => fst r = None
     | Some i => exists x, is (py_objects s) i x /\
         match x with
         | Tuple l => fst r = nth_error l n
         | Str t => match nth_error t n with Some c => exists k, fst r = Some k /\ is (py_objects (snd r)) k (Str [c]) | None => fst r = None end
         | _ => fst r = None
         end
     end) (get_item v n s).
Proof.
  intros C I. unfold get_item. destruct v as [i|].
  2:{ cbn. repeat split; auto. intros j x K; exact K. }
  destruct (held_is _ _ i C (I i eq_refl)) as (x & X). rewrite (look_alive _ _ _ X). cbn [bind].
  assert (G : grows s (fail s)) by (intros j y K; exact K).
  destruct x as [t|z| |l| ].
  - destruct (nth_error t n) as [c|] eqn:N.
    + cbn. repeat split.
      * apply (fresh_counts _ o (Str [c])); auto.
      * intros j y K. apply is_app. exact K.
      * exists (Str t). split; [exact X|]. rewrite N. eexists. split; [reflexivity|]. exists 1. rewrite nth_error_app2, Nat.sub_diag by lia. reflexivity.
    + cbn. repeat split; auto. exists (Str t). rewrite N. auto.
  - cbn. repeat split; auto. exists (Int z). auto.
  - cbn. repeat split; auto. exists NoneObject. auto.
  - destruct (nth_error l n) as [j|] eqn:N.
    + destruct (item_is _ _ _ _ j C X) as (y & Y). { cbn. eapply nth_error_In; eauto. }
      destruct (incref_alive (py_objects s) j) as (h' & E). { destruct Y as (m & Y). exists m, y. exact Y. }
      rewrite E. cbn. destruct (incref_counts _ _ _ _ C E) as [C' G']. repeat split; auto.
      exists (Tuple l). rewrite N. auto.
    + cbn. repeat split; auto. exists (Tuple l). rewrite N. auto.
  - cbn. repeat split; auto. exists Other. auto.
Qed.

Lemma scoped_holds {A} u (P : A -> Prop) r p o : holds u (fun x => P (fst x) /\ counted (py_objects (snd x)) (pointee r ++ o) /\ indicator (snd x) = None) p ->
  holds u (fun x => P (fst x) /\ counted (py_objects (snd x)) o /\ indicator (snd x) = None) (scoped true r p) /\
  holds u (fun x => P (fst x) /\ counted (py_objects (snd x)) o /\ indicator (snd x) = None) (scoped false r p).
Proof.
  intros H. unfold scoped. destruct p as [[a s]| |]; cbn [bind fst snd]; auto. destruct H as (Q & C & N). cbn [fst snd] in *.
  destruct r as [j|]; cbn [destruct_reference dec_ref].
  - destruct (decref_counts _ _ _ C) as (h' & E & C'). rewrite E. cbn. auto.
  - cbn. auto.
Qed.
Lemma scoped_holds' {A} debug u (P : A -> Prop) r p o : holds u (fun x => P (fst x) /\ counted (py_objects (snd x)) (pointee r ++ o) /\ indicator (snd x) = None) p ->
  holds u (fun x => P (fst x) /\ counted (py_objects (snd x)) o /\ indicator (snd x) = None) (scoped debug r p).
Proof. intros H. destruct debug; apply scoped_holds; exact H. Qed.

(** ** The walk through [throw_syntax_error] *)
Section Walk.
Variable debug : bool.
Notation u := (debug = false).

Lemma check_holds (p : res bool) (P : bool -> Prop) : holds False P p -> holds u (fun _ => debug = true -> P true) (check debug p).
Proof. unfold check. destruct debug; [|cbn; congruence]. destruct p as [[|]| |]; cbn; tauto. Qed.

Lemma has_length_holds o v n s : counted (py_objects s) o -> (forall i, v = Some i -> In i o) ->
  holds False (fun b => b = true -> exists i x, v = Some i /\ is (py_objects s) i x /\ (match x with Tuple l => length l = n | Str t => length t = n | _ => False end)) (has_length n v s).
Proof.
  intros C I. unfold has_length, sequence_length. destruct v as [i|]; [|cbn; discriminate].
  destruct (held_is _ _ i C (I i eq_refl)) as (x & X). rewrite (look_alive _ _ _ X). cbn [bind].
  destruct x; cbn; try discriminate; intros E; apply Nat.eqb_eq in E; exists i; eexists; split; try reflexivity; split; try exact X; exact E.
Qed.

Lemma as_unicode_holds o v s : counted (py_objects s) o -> (forall i, v = Some i -> In i o) -> (debug = true -> v <> None) ->
  holds u (fun t => exists i w, v = Some i /\ is (py_objects s) i (Str w) /\ t = ScriptModel.c_string w) (as_unicode_string debug v s).
Proof.
  intros C I N. unfold as_unicode_string. destruct v as [i|].
  2:{ cbn. destruct debug; [destruct (N eq_refl eq_refl)|reflexivity]. }
  destruct (held_is _ _ i C (I i eq_refl)) as (x & X). rewrite (look_alive _ _ _ X). cbn [bind].
  destruct x; destruct debug; cbn; auto; exists i; eexists; split; try reflexivity; split; try exact X; reflexivity.
Qed.

Lemma is_int_holds o v s : counted (py_objects s) o -> (forall i, v = Some i -> In i o) -> v <> None ->
  holds False (fun b => b = true -> exists i z, v = Some i /\ is (py_objects s) i (Int z)) (is_int v s).
Proof.
  intros C I N. unfold is_int. destruct v as [i|]; [|congruence].
  destruct (held_is _ _ i C (I i eq_refl)) as (x & X). rewrite (look_alive _ _ _ X). cbn [bind].
  destruct x; cbn; try discriminate. eauto.
Qed.
Lemma check_int o v s : counted (py_objects s) o -> (forall i, v = Some i -> In i o) -> (debug = true -> v <> None) ->
  holds u (fun _ => debug = true -> exists i z, v = Some i /\ is (py_objects s) i (Int z)) (check debug (is_int v s)).
Proof.
  intros C I N. destruct debug eqn:D; [|cbn; congruence].
  pose proof (is_int_holds o v s C I (N eq_refl)) as H. unfold check.
  destruct (is_int v s) as [[|]| |]; cbn in *; auto; contradiction.
Qed.

Lemma as_long_holds o v s : counted (py_objects s) o -> (forall i, v = Some i -> In i o) ->
  holds False (fun r => py_objects (snd r) = py_objects s /\ indicator (snd r) = indicator s) (as_long v s).
Proof.
  intros C I. unfold as_long. destruct v as [i|]; [|cbn; auto].
  destruct (held_is _ _ i C (I i eq_refl)) as (x & X). rewrite (look_alive _ _ _ X). cbn [bind].
  destruct x; cbn; auto.
Qed.

Lemma holds_false {A} (P : A -> Prop) p : holds False P p -> holds u P p.
Proof. destruct p; cbn; tauto. Qed.

Lemma check_true b : holds u (fun _ => True) (check debug (Ok b)).
Proof. unfold check. destruct debug, b; cbn; auto. Qed.

Lemma syntax_walk source value s o : counted (py_objects s) o -> (forall i, value = Some i -> In i o) -> indicator s = None ->
  holds u (fun x =>
    (debug = true -> exists i message line column statement, value = Some i /\ syntax_value (py_objects s) i message line column statement) /\
    counted (py_objects (snd x)) o /\ indicator (snd x) = None) (throw_syntax_error debug source value s).
Proof.
  intros C I N. unfold throw_syntax_error.
  set (Post := debug = true -> exists i message line column statement,
         value = Some i /\ syntax_value (py_objects s) i message line column statement).
  eapply holds_bind. { apply check_holds. apply (has_length_holds o value 2 s C I). }
  intros [] L2. cbn beta in L2.
  assert (L2' : debug = true -> exists i x, value = Some i /\ is (py_objects s) i x /\
    match x with Tuple l => length l = 2 | Str t => length t = 2 | _ => False end) by auto. clear L2.
  eapply holds_bind. { apply holds_false. apply (get_item_holds o value 0 s C I). }
  intros [m s1] (C1 & G1 & N1 & M). cbn [fst snd] in *. unfold reference_to.
  apply (scoped_holds' debug u (fun _ => Post)).
  assert (M' : debug = true -> m <> None).
  { intros D. destruct (L2' D) as (i & x & -> & X & L). destruct M as (y & Y & M). rewrite (is_unique _ _ _ _ Y X) in M.
    destruct x as [t|z| |l| ]; try contradiction.
    - destruct t as [|c t]; [discriminate|]. cbn in M. destruct M as (k & -> & _). discriminate.
    - destruct l as [|c l]; [discriminate|]. cbn in M. rewrite M. discriminate. }
  eapply holds_bind. { apply (as_unicode_holds (pointee m ++ o) m s1 C1); [|exact M']. intros i ->. left; reflexivity. }
  intros message (im & wm & Em & Im & ->).
  eapply holds_bind. { apply holds_false. apply (get_item_holds (pointee m ++ o) value 1 s1 C1). intros i E. apply in_or_app. right. auto. }
  intros [d s2] (C2 & G2 & N2 & Dt). cbn [fst snd] in *. rewrite <- app_assoc in * || idtac.
  apply (scoped_holds' debug u (fun _ => Post)).
  eapply holds_bind. { apply check_holds. apply (has_length_holds (pointee d ++ pointee m ++ o) d 4 s2 C2). intros i ->. left; reflexivity. }
  intros [] L4. cbn beta in L4.
  assert (L4' : debug = true -> exists i x, d = Some i /\ is (py_objects s2) i x /\
    match x with Tuple l => length l = 4 | Str t => length t = 4 | _ => False end) by auto. clear L4.
  assert (ID : forall r i, d = Some i -> In i (r ++ pointee d ++ pointee m ++ o)).
  { intros r i ->. apply in_or_app. right. left; reflexivity. }
  eapply holds_bind. { apply holds_false. apply (get_item_holds (pointee d ++ pointee m ++ o) d 1 s2 C2). apply (ID []). }
  intros [l s3] (C3 & G3 & N3 & Lt). cbn [fst snd] in *.
  apply (scoped_holds' debug u (fun _ => Post)).
  assert (Item : forall (P : Prop), debug = true -> forall k r sa sb, k < 4 ->
      (forall i x, is (py_objects s2) i x -> is (py_objects sa) i x) ->
      match d with
      | Some i => exists x, is (py_objects sa) i x /\
          match x with
          | Tuple l => r = nth_error l k
          | Str t => match nth_error t k with Some c => exists q, r = Some q /\ is (py_objects sb) q (Str [c]) | None => r = None end
          | _ => r = None
          end
      | None => r = None
      end -> r <> None).
  { intros _ D k r sa sb K G. destruct (L4' D) as (i & x & -> & X & L). intros (y & Y & M2).
    rewrite (is_unique _ _ _ _ Y (G _ _ X)) in M2. destruct x as [t|z| |q| ]; try contradiction.
    - destruct (nth_error t k) eqn:Q; [|exfalso; apply nth_error_None in Q; lia]. destruct M2 as (w & -> & _). discriminate.
    - rewrite M2. intros Q. apply nth_error_None in Q. lia. }
  eapply holds_bind. { apply (check_int (pointee l ++ pointee d ++ pointee m ++ o) l s3 C3). { intros i ->. left; reflexivity. }
    intros D. apply (Item True D 1 l s2 s3); auto. }
  intros [] Li. cbn beta in Li.
  eapply holds_bind. { apply holds_false. apply (as_long_holds (pointee l ++ pointee d ++ pointee m ++ o) l s3 C3). intros i ->. left; reflexivity. }
  intros [line s4] (H4 & N4). cbn [fst snd] in *.
  eapply holds_bind. { apply check_true. } intros [] _.
  assert (C4 : counted (py_objects s4) (pointee l ++ pointee d ++ pointee m ++ o)) by (rewrite H4; exact C3).
  eapply holds_bind. { apply holds_false. apply (get_item_holds (pointee l ++ pointee d ++ pointee m ++ o) d 2 s4 C4). apply ID. }
  intros [c s5] (C5 & G5 & N5 & Ct). cbn [fst snd] in *.
  apply (scoped_holds' debug u (fun _ => Post)).
  assert (G4 : forall i x, is (py_objects s2) i x -> is (py_objects s4) i x) by (intros i x K; rewrite H4; apply G3; exact K).
  eapply holds_bind. { apply (check_int (pointee c ++ pointee l ++ pointee d ++ pointee m ++ o) c s5 C5). { intros i ->. left; reflexivity. }
    intros D. apply (Item True D 2 c s4 s5); auto. }
  intros [] Ci. cbn beta in Ci.
  eapply holds_bind. { apply holds_false. apply (as_long_holds (pointee c ++ pointee l ++ pointee d ++ pointee m ++ o) c s5 C5). intros i ->. left; reflexivity. }
  intros [column s6] (H6 & N6). cbn [fst snd] in *.
  eapply holds_bind. { apply check_true. } intros [] _.
  assert (C6 : counted (py_objects s6) (pointee c ++ pointee l ++ pointee d ++ pointee m ++ o)) by (rewrite H6; exact C5).
  eapply holds_bind. { apply holds_false. apply (get_item_holds (pointee c ++ pointee l ++ pointee d ++ pointee m ++ o) d 3 s6 C6). intros i E. apply in_or_app. right. apply ID. exact E. }
  intros [t s7] (C7 & G7 & N7 & Tt). cbn [fst snd] in *.
  apply (scoped_holds' debug u (fun _ => Post)).
  assert (G6 : forall i x, is (py_objects s2) i x -> is (py_objects s6) i x) by (intros i x K; rewrite H6; apply G5, G4; exact K).
  eapply holds_bind. { apply (as_unicode_holds (pointee t ++ pointee c ++ pointee l ++ pointee d ++ pointee m ++ o) t s7 C7). { intros i ->. left; reflexivity. }
    intros D. apply (Item True D 3 t s6 s7); auto. }
  intros statement (it & wt & Et & It & ->).
  eapply holds_bind. { apply check_true. } intros [] _.
  cbn [holds fst snd]. split; [|split; [exact C7|congruence]]. unfold Post.
  intros D. destruct (L2' D) as (iv & xv & -> & Xv & Lv). destruct (L4' D) as (id & xd & -> & Xd & Ld).
  destruct (Li D) as (il & zl & -> & Il). destruct (Ci D) as (ic & zc & -> & Ic). subst m t.
  (* the details *)
  destruct Lt as (yl & Yl & Lt). rewrite (is_unique _ _ _ _ Yl Xd) in Lt.
  destruct Ct as (yc & Yc & Ct). rewrite (is_unique _ _ _ _ Yc (G4 _ _ Xd)) in Ct.
  destruct Tt as (yt & Yt & Tt). rewrite (is_unique _ _ _ _ Yt (G6 _ _ Xd)) in Tt.
  destruct xd as [w|z| |ld| ]; try contradiction.
  { exfalso. destruct (nth_error w 1) eqn:Q; [|discriminate]. destruct Lt as (k & K & J). injection K as <-.
    pose proof (is_unique _ _ _ _ J Il). discriminate. }
  destruct ld as [|a0 [|a1 [|a2 [|a3 [|]]]]]; try discriminate. cbn in Lt, Ct, Tt. injection Lt as ->. injection Ct as ->. injection Tt as ->.
  (* the value *)
  destruct M as (ym & Ym & M). rewrite (is_unique _ _ _ _ Ym Xv) in M.
  destruct Dt as (yd & Yd & Dt). rewrite (is_unique _ _ _ _ Yd (G1 _ _ Xv)) in Dt.
  destruct xv as [w|z| |lv| ]; try contradiction.
  { exfalso. destruct (nth_error w 1) eqn:Q; [|discriminate]. destruct Dt as (k & K & J). injection K as <-.
    pose proof (is_unique _ _ _ _ J Xd). discriminate. }
  destruct lv as [|b0 [|b1 [|]]]; try discriminate. cbn in M, Dt. injection M as ->. injection Dt as ->.
  exists iv, wm, zl, zc, wt. split; [reflexivity|].
  assert (Back : forall j x y sa, is (py_objects s) j y -> grows s sa -> is (py_objects sa) j x -> is (py_objects s) j x).
  { intros j x y sa Y G X. rewrite (is_unique _ _ _ _ X (G _ _ Y)). exact Y. }
  destruct (item_is _ _ _ _ b0 C Xv) as (y0 & Y0); [left; reflexivity|].
  destruct (item_is _ _ _ _ b1 C Xv) as (y1 & Y1); [right; left; reflexivity|].
  assert (G02 : grows s s2) by (eapply grows_trans; eauto).
  assert (G04 : grows s s4) by (intros j x K; apply G4, G02; exact K).
  assert (G05 : grows s s5) by (eapply grows_trans; eauto).
  assert (G07 : grows s s7) by (intros j x K; apply G7; rewrite H6; apply G05; exact K).
  pose proof (Back _ _ _ _ Y1 G02 Xd) as Xd0.
  destruct (item_is _ _ _ _ a1 C Xd0) as (z1 & Z1); [cbn; tauto|].
  destruct (item_is _ _ _ _ a2 C Xd0) as (z2 & Z2); [cbn; tauto|].
  destruct (item_is _ _ _ _ a3 C Xd0) as (z3 & Z3); [cbn; tauto|].
  exists b0, b1, a0, a1, a2, a3. repeat split; auto.
  - exact (Back _ _ _ _ Y0 G1 Im).
  - apply (Back _ _ _ s4 Z1 G04). rewrite H4. exact Il.
  - exact (Back _ _ _ _ Z2 G05 Ic).
  - exact (Back _ _ _ _ Z3 G07 It).
Qed.
End Walk.

(** ** Values that are as expected *)
Definition number_of (x : object) : Z * bool := match x with Int z => (z, false) | _ => ((-1)%Z, true) end.

Lemma evolves_is h0 h i x : evolves h0 h -> alive h i -> is h0 i x -> is h i x.
Proof. intros [_ V] (n & y & E) I. rewrite (is_unique _ _ _ _ I (V _ _ _ E)). exists n. exact E. Qed.

Lemma get_tuple h0 o v l n j s : counted (py_objects s) o -> evolves h0 (py_objects s) -> orderly h0 (py_objects s) ->
  is (py_objects s) v (Tuple l) -> nth_error l n = Some j ->
  exists s', get_item (Some v) n s = Ok (Some j, s') /\ counted (py_objects s') (j :: o) /\
    evolves h0 (py_objects s') /\ orderly h0 (py_objects s') /\ grows s s' /\ indicator s' = indicator s /\ failed s' = failed s.
Proof.
  intros C V O I N. unfold get_item. rewrite (look_alive _ _ _ I). cbn [bind]. rewrite N.
  destruct (item_is _ _ _ _ j C I) as (y & m & Y). { cbn. eapply nth_error_In; eauto. }
  destruct (incref_counted h0 _ o j C (ex_intro _ m (ex_intro _ y Y)) V O) as (h' & E & C' & V' & O').
  rewrite E. eexists; split; [reflexivity|]. cbn. repeat split; try apply V'; auto.
  destruct (incref_counts _ _ _ _ C E) as [_ G]. exact G.
Qed.

Lemma scoped_runs {A} debug h0 o r p (a : A) s : p = Ok (a, s) -> counted (py_objects s) (pointee r ++ o) ->
  evolves h0 (py_objects s) -> orderly h0 (py_objects s) ->
  exists s', scoped debug r p = Ok (a, s') /\ counted (py_objects s') o /\ evolves h0 (py_objects s') /\ orderly h0 (py_objects s') /\
    indicator s' = indicator s /\ failed s' = failed s.
Proof.
  intros -> C V O. unfold scoped. cbn [bind fst snd]. destruct r as [j|]; cbn [destruct_reference dec_ref].
  - destruct (decref_counted h0 _ _ _ C V O) as (h' & E & C' & V' & O'). rewrite E. eexists; split; [reflexivity|]. cbn. auto.
  - eexists; split; [reflexivity|]. cbn. auto.
Qed.

Definition int_object (x : object) : Prop := match x with Int _ => True | _ => False end.

Lemma long_runs s i x : is (py_objects s) i x ->
  as_long (Some i) s = Ok (fst (number_of x), if snd (number_of x) then fail s else s).
Proof. intros I. unfold as_long. rewrite (look_alive _ _ _ I). destruct x; reflexivity. Qed.
Lemma text_runs debug s i t : is (py_objects s) i (Str t) -> as_unicode_string debug (Some i) s = Ok (ScriptModel.c_string t).
Proof. intros I. unfold as_unicode_string. rewrite (look_alive _ _ _ I). reflexivity. Qed.
Lemma check_int_runs debug s i x : is (py_objects s) i x -> (debug = true -> int_object x) -> check debug (is_int (Some i) s) = Ok tt.
Proof.
  intros I D. unfold check. destruct debug; [|reflexivity]. unfold is_int. rewrite (look_alive _ _ _ I).
  destruct x; try destruct (D eq_refl). reflexivity.
Qed.
Lemma check_runs debug (b : bool) : (debug = true -> b = true) -> check debug (Ok b) = Ok tt.
Proof. intros H. unfold check. destruct debug; [|reflexivity]. rewrite H by reflexivity. reflexivity. Qed.
Lemma int_number x : int_object x -> snd (number_of x) = false.
Proof. destruct x; cbn; tauto. Qed.

Lemma syntax_runs debug h0 source v s o m d src l c t message xl xc statement :
  counted (py_objects s) o -> evolves h0 (py_objects s) -> orderly h0 (py_objects s) -> indicator s = None -> failed s = false ->
  is (py_objects s) v (Tuple [m; d]) -> is (py_objects s) m (Str message) -> is (py_objects s) d (Tuple [src; l; c; t]) ->
  is (py_objects s) l xl -> is (py_objects s) c xc -> is (py_objects s) t (Str statement) ->
  (debug = true -> int_object xl /\ int_object xc) ->
  exists s', throw_syntax_error debug source (Some v) s =
    Ok (ParseError (Some source) (Some (fst (number_of xl))) (Some (fst (number_of xc)))
          (Some (strip (ScriptModel.c_string statement) [ascii_of_nat 10])) (Some (ScriptModel.c_string message)), s') /\
    counted (py_objects s') o /\ evolves h0 (py_objects s') /\ orderly h0 (py_objects s') /\ indicator s' = None /\
    failed s' = snd (number_of xl) || snd (number_of xc).
Proof.
  intros C V O N F Iv Im Id Il Ic It D.
  destruct (get_tuple h0 o v [m; d] 0 m s C V O Iv eq_refl) as (s1 & E1 & C1 & V1 & O1 & G1 & N1 & F1).
  destruct (get_tuple h0 _ v [m; d] 1 d s1 C1 V1 O1 (G1 _ _ Iv) eq_refl) as (s2 & E2 & C2 & V2 & O2 & G2 & N2 & F2).
  assert (H2 : grows s s2) by (eapply grows_trans; eauto).
  destruct (get_tuple h0 _ d [src; l; c; t] 1 l s2 C2 V2 O2 (H2 _ _ Id) eq_refl) as (s3 & E3 & C3 & V3 & O3 & G3 & N3 & F3).
  assert (H3 : grows s s3) by (eapply grows_trans; eauto).
  pose (s4 := if snd (number_of xl) then fail s3 else s3).
  assert (P4 : py_objects s4 = py_objects s3) by (unfold s4; destruct (snd (number_of xl)); reflexivity).
  assert (N4 : indicator s4 = None) by (unfold s4; destruct (snd (number_of xl)); cbn; congruence).
  assert (F4 : failed s4 = snd (number_of xl)) by (unfold s4; destruct (snd (number_of xl)); cbn; congruence).
  assert (H4 : grows s s4) by (intros i x K; rewrite P4; auto).
  rewrite <- P4 in C3, V3, O3.
  destruct (get_tuple h0 _ d [src; l; c; t] 2 c s4 C3 V3 O3 (H4 _ _ Id) eq_refl) as (s5 & E5 & C5 & V5 & O5 & G5 & N5 & F5).
  assert (H5 : grows s s5) by (eapply grows_trans; eauto).
  pose (s6 := if snd (number_of xc) then fail s5 else s5).
  assert (P6 : py_objects s6 = py_objects s5) by (unfold s6; destruct (snd (number_of xc)); reflexivity).
  assert (N6 : indicator s6 = None) by (unfold s6; destruct (snd (number_of xc)); cbn; congruence).
  assert (F6 : failed s6 = snd (number_of xl) || snd (number_of xc)).
  { unfold s6; destruct (snd (number_of xc)); cbn. { rewrite orb_true_r; reflexivity. } rewrite orb_false_r. congruence. }
  assert (H6 : grows s s6) by (intros i x K; rewrite P6; auto).
  rewrite <- P6 in C5, V5, O5.
  destruct (get_tuple h0 _ d [src; l; c; t] 3 t s6 C5 V5 O5 (H6 _ _ Id) eq_refl) as (s7 & E7 & C7 & V7 & O7 & G7 & N7 & F7).
  assert (H7 : grows s s7) by (eapply grows_trans; eauto).
  assert (Ok4 : debug = true -> negb (occurred s4) = true).
  { intros X. destruct (D X) as [A _]. unfold occurred. rewrite N4, F4, (int_number _ A). reflexivity. }
  assert (Ok6 : forall s', indicator s' = None -> failed s' = failed s6 -> debug = true -> negb (occurred s') = true).
  { intros s' A B X. destruct (D X) as [Y Z]. unfold occurred. rewrite A, B, F6, (int_number _ Y), (int_number _ Z). reflexivity. }
  set (e := ParseError (Some source) (Some (fst (number_of xl))) (Some (fst (number_of xc)))
          (Some (strip (ScriptModel.c_string statement) [ascii_of_nat 10])) (Some (ScriptModel.c_string message))).
  unfold throw_syntax_error.
  assert (K2 : check debug (has_length 2 (Some v) s) = Ok tt).
  { unfold has_length, sequence_length. rewrite (look_alive _ _ _ Iv). apply check_runs. reflexivity. }
  rewrite K2. cbn [bind]. rewrite E1. cbn [bind fst snd reference_to].
  rewrite (text_runs debug s1 m message (G1 _ _ Im)). cbn [bind]. rewrite E2. cbn [bind fst snd reference_to].
  assert (K4 : check debug (has_length 4 (Some d) s2) = Ok tt).
  { unfold has_length, sequence_length. rewrite (look_alive _ _ _ (H2 _ _ Id)). apply check_runs. reflexivity. }
  rewrite K4. cbn [bind]. rewrite E3. cbn [bind fst snd reference_to].
  rewrite (check_int_runs debug s3 l xl (H3 _ _ Il)) by (intros X; apply (D X)). cbn [bind].
  rewrite (long_runs s3 l xl (H3 _ _ Il)). cbn [bind fst snd]. fold s4.
  rewrite (check_runs debug (negb (occurred s4)) Ok4). cbn [bind].
  rewrite E5. cbn [bind fst snd reference_to].
  rewrite (check_int_runs debug s5 c xc (H5 _ _ Ic)) by (intros X; apply (D X)). cbn [bind].
  rewrite (long_runs s5 c xc (H5 _ _ Ic)). cbn [bind fst snd]. fold s6.
  rewrite (check_runs debug (negb (occurred s6)) (Ok6 s6 N6 eq_refl)). cbn [bind].
  rewrite E7. cbn [bind fst snd reference_to].
  rewrite (text_runs debug s7 t statement (H7 _ _ It)). cbn [bind].
  rewrite (check_runs debug (negb (occurred s7)) (Ok6 s7 (eq_trans N7 N6) F7)). cbn [bind]. fold e.
  destruct (scoped_runs debug h0 _ (Some t) _ e s7 eq_refl C7 V7 O7) as (t1 & T1 & D1 & U1 & W1 & M1 & L1).
  destruct (scoped_runs debug h0 _ (Some c) _ e t1 T1 D1 U1 W1) as (t2 & T2 & D2 & U2 & W2 & M2 & L2).
  destruct (scoped_runs debug h0 _ (Some l) _ e t2 T2 D2 U2 W2) as (t3 & T3 & D3 & U3 & W3 & M3 & L3).
  destruct (scoped_runs debug h0 _ (Some d) _ e t3 T3 D3 U3 W3) as (t4 & T4 & D4 & U4 & W4 & M4 & L4).
  destruct (scoped_runs debug h0 o (Some m) _ e t4 T4 D4 U4 W4) as (t5 & T5 & D5 & U5 & W5 & M5 & L5).
  exists t5. split; [exact T5|]. repeat split; try apply U5; auto; congruence.
Qed.

(** ** Texts *)
Lemma c_string_up_to t : up_to_zero t (ScriptModel.c_string t).
Proof.
  unfold up_to_zero. induction t as [|c t [N H]]; cbn [ScriptModel.c_string]; [split; [intros []|left; reflexivity]|].
  destruct (Ascii.eqb_spec c "000"%char) as [->|D].
  - split; [intros []|]. right. exists t. reflexivity.
  - split. { intros [E|E]; [congruence|exact (N E)]. }
    destruct H as [H|(r & H)]; [left; congruence|right; exists r; cbn; congruence].
Qed.
