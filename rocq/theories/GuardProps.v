(** * C55: scope exit actions *)
From Coq Require Import List Bool Arith Lia.
From Verif Require Import GuardModel GuardSpec.
Import ListNotations.

Lemma steps_app s h h' : steps s (h ++ h') = match steps s h with Some s' => steps s' h' | None => None end.
Proof. revert s. induction h as [|e h IH]; intros s; cbn; auto. destruct (step s e); auto. Qed.

Lemma created_app h h' : created (h ++ h') = created h + created h'.
Proof. induction h as [|e h IH]; cbn; lia. Qed.

Lemma length_update l : forall i g, length (update l i g) = length l.
Proof. induction l as [|x l IH]; intros [|i] g; cbn; auto. Qed.

Lemma nth_update l : forall i g j, nth_error (update l i g) j =
  if (j =? i) && (i <? length l) then Some g else nth_error l j.
Proof.
  induction l as [|x l IH]; intros [|i] g [|j]; cbn; auto.
  - destruct (j =? i); auto.
  - rewrite IH. replace (S i <? S (length l)) with (i <? length l) by reflexivity. auto.
Qed.

Lemma nth_snoc {A} (l : list A) x i : nth_error (l ++ [x]) i =
  if i =? length l then Some x else nth_error l i.
Proof.
  destruct (Nat.eqb_spec i (length l)) as [->|N].
  - rewrite nth_error_app2, Nat.sub_diag; auto.
  - destruct (Nat.lt_ge_cases i (length l)); [apply nth_error_app1; auto|].
    rewrite (proj2 (nth_error_None l i)) by lia. apply nth_error_None. rewrite app_length. cbn. lia.
Qed.

Lemma nth_live s i g : live s i = Some g -> nth_error (guards s) i = Some g /\ alive g = true /\ i < length (guards s).
Proof.
  unfold live. destruct (nth_error (guards s) i) eqn:E; [|discriminate].
  destruct (alive g0) eqn:A; [|discriminate]. intros [= <-]. split; auto. split; auto.
  apply nth_error_Some. congruence.
Qed.

Lemma history_ind (P : list event -> state -> Prop) :
  P [] initial ->
  (forall h s e s', steps initial h = Some s -> P h s -> step s e = Some s' -> P (h ++ [e]) s') ->
  forall h s, steps initial h = Some s -> P h s.
Proof.
  intros H0 HS h. induction h as [|e h IH] using rev_ind; intros s E.
  - injection E as <-. auto.
  - rewrite steps_app in E. destruct (steps initial h) as [s1|] eqn:E1; [|discriminate].
    cbn in E. destruct (step s1 e) as [s2|] eqn:E2; [|discriminate]. injection E as <-. eauto.
Qed.

Lemma guards_created h s : steps initial h = Some s -> length (guards s) = created h.
Proof.
  intros E. pattern h, s. revert h s E. apply history_ind; auto.
  intros h s e s' _ IH E. rewrite created_app. cbn [created].
  destruct e as [f|k|k|k]; cbn [step creates] in *; try (destruct (live s k); [|discriminate]); injection E as <-; cbn [guards];
    rewrite ?app_length, ?length_update; cbn; lia.
Qed.

Definition answers (s : state) (f i : nat) : Prop :=
  exists g, live s i = Some g /\ function g = f /\ execute_on_destruction g = true.

Lemma snoc_inj {A} (l l' : list A) x y : l ++ [x] = l' ++ [y] -> l = l' /\ x = y.
Proof. apply app_inj_tail. Qed.

Lemma responsible_inv f i h e : responsible f i (h ++ [e]) ->
  (e = Construct f /\ i = created h) \/ (exists j, e = Move j /\ i = created h /\ responsible f j h) \/
  (responsible f i h /\ e <> Release i /\ e <> Destroy i).
Proof.
  intros R. remember (h ++ [e]) as h' eqn:E. destruct R as [h0 H|h0 j H R|h0 e0 R N1 N2];
    apply snoc_inj in E as [-> <-]; eauto 6.
Qed.

Lemma not_responsible_yet f i h : responsible f i h -> i < created h.
Proof.
  induction 1; subst; rewrite created_app; cbn; lia.
Qed.

Lemma responsible_answers h s : steps initial h = Some s ->
  forall f i, responsible f i h <-> answers s f i.
Proof.
  intros E. pattern h, s. revert h s E. apply history_ind.
  - intros f i. split; [intros R; apply not_responsible_yet in R; cbn in R; lia|].
    intros (g & L & _). destruct i; discriminate L.
  - intros h s e s' E IH E' f i.
    assert (Len := guards_created _ _ E).
    assert (NR : forall f i, responsible f i h -> i < length (guards s)) by (intros; rewrite Len; eapply not_responsible_yet; eauto).
    assert (Inv := responsible_inv f i h e).
    destruct e as [f'|k|k|k]; cbn [step] in E'.
    + injection E' as <-. unfold answers, live. cbn [guards]. rewrite nth_snoc.
      destruct (Nat.eqb_spec i (length (guards s))) as [->|N].
      * split.
        -- intros R. destruct (Inv R) as [[[= <-] _]|[(j & H & _)|[R' _]]]; [|discriminate|apply NR in R'; lia].
           eexists; split; [reflexivity|]; auto.
        -- intros (g & [= <-] & <- & _). apply responsible_constructed. cbn; lia.
      * split.
        -- intros R. destruct (Inv R) as [[_ H]|[(j & H & _)|[R' _]]]; [lia|discriminate|]. apply IH; auto.
        -- intros A. apply responsible_still; try discriminate. apply IH; auto.
    + destruct (live s k) as [g|] eqn:L; [|discriminate]. injection E' as <-. unfold answers, live. cbn [guards]. rewrite nth_snoc.
      destruct (Nat.eqb_spec i (length (guards s))) as [->|N].
      * split.
        -- intros R. destruct (Inv R) as [[H _]|[(j & [= <-] & _ & R')|[R' _]]]; [discriminate| |apply NR in R'; lia].
           apply IH in R' as (g' & L' & F & X). rewrite L in L'. injection L' as <-. eexists; split; [reflexivity|]; auto.
        -- intros (g' & [= <-] & F & X). apply responsible_moved; [lia|]. apply IH. exists g. auto.
      * split.
        -- intros R. destruct (Inv R) as [[H _]|[(j & H & H' & _)|[R' _]]]; [discriminate|lia|]. apply IH; auto.
        -- intros A. apply responsible_still; try discriminate. apply IH; auto.
    + destruct (live s k) as [g|] eqn:L; [|discriminate]. injection E' as <-. unfold answers, live. cbn [guards]. rewrite nth_update.
      apply nth_live in L as (L1 & L2 & L3). rewrite (proj2 (Nat.ltb_lt _ _) L3), andb_true_r.
      destruct (Nat.eqb_spec i k) as [->|N].
      * split.
        -- intros R. destruct (Inv R) as [[H _]|[(j & H & _)|[R' [H _]]]]; [discriminate|discriminate|congruence].
        -- intros (g' & [= <-] & F & X). discriminate.
      * split.
        -- intros R. destruct (Inv R) as [[H _]|[(j & H & H' & _)|[R' _]]]; [discriminate|discriminate|]. apply IH; auto.
        -- intros A. apply responsible_still; try congruence. apply IH; auto.
    + destruct (live s k) as [g|] eqn:L; [|discriminate]. injection E' as <-. unfold answers, live. cbn [guards]. rewrite nth_update.
      apply nth_live in L as (L1 & L2 & L3). rewrite (proj2 (Nat.ltb_lt _ _) L3), andb_true_r.
      destruct (Nat.eqb_spec i k) as [->|N].
      * split.
        -- intros R. destruct (Inv R) as [[H _]|[(j & H & _)|[R' [_ H]]]]; [discriminate|discriminate|congruence].
        -- intros (g' & H & _). discriminate.
      * split.
        -- intros R. destruct (Inv R) as [[H _]|[(j & H & H' & _)|[R' _]]]; [discriminate|discriminate|]. apply IH; auto.
        -- intros A. apply responsible_still; try congruence. apply IH; auto.
Qed.

(** Functions are called by the destruction of responsible guards, and by nothing else. *)
Theorem C55_calls h s e s' :
  steps initial h = Some s -> step s e = Some s' ->
  match e with
  | Destroy i =>
      (exists f, responsible f i h /\ called s' = called s ++ [f]) \/
      ((forall f, ~ responsible f i h) /\ called s' = called s)
  | _ => called s' = called s
  end.
Proof.
  intros E E'. assert (R := responsible_answers _ _ E). destruct e as [f|k|k|k]; cbn in E'.
  - injection E' as <-. auto.
  - destruct (live s k); [|discriminate]. injection E' as <-. auto.
  - destruct (live s k); [|discriminate]. injection E' as <-. auto.
  - destruct (live s k) as [g|] eqn:L; [|discriminate]. injection E' as <-. cbn [called].
    destruct (execute_on_destruction g) eqn:X.
    + left. exists (function g). split; auto. apply R. exists g. auto.
    + right. rewrite app_nil_r. split; auto. intros f A. apply R in A as (g' & L' & _ & X'). congruence.
Qed.
Print Assumptions C55_calls.

(** The states of a guard that is not moved. *)
Inductive stage (f i : nat) (s : state) (h : list event) : Prop :=
| waiting g : nth_error (guards s) i = Some g -> function g = f -> execute_on_destruction g = true ->
    alive g = true -> calls f s = 0 -> ~ In (Destroy i) h -> ~ In (Release i) h -> stage f i s h
| released g : nth_error (guards s) i = Some g -> execute_on_destruction g = false ->
    calls f s = 0 -> In (Release i) h -> stage f i s h
| gone g : nth_error (guards s) i = Some g -> alive g = false ->
    calls f s = 1 -> In (Destroy i) h -> ~ In (Release i) h -> stage f i s h.

Definition owned (f i : nat) (s : state) : Prop :=
  forall j g, nth_error (guards s) j = Some g -> function g = f -> j = i.

Lemma calls_snoc f l x : count_occ Nat.eq_dec (l ++ [x]) f = count_occ Nat.eq_dec l f + if x =? f then 1 else 0.
Proof.
  rewrite count_occ_app. cbn. destruct (Nat.eq_dec x f) as [->|N].
  - rewrite Nat.eqb_refl. auto.
  - rewrite (proj2 (Nat.eqb_neq x f) N). auto.
Qed.

Lemma not_in_snoc {A} (x y : A) l : ~ In x l -> x <> y -> ~ In x (l ++ [y]).
Proof. rewrite in_app_iff. cbn. intuition congruence. Qed.

Lemma stage_kept f i s h e s' :
  stage f i s h -> nth_error (guards s') i = nth_error (guards s) i -> calls f s' = calls f s ->
  e <> Release i -> e <> Destroy i -> stage f i s' (h ++ [e]).
Proof.
  intros St G C N1 N2. destruct St as [g A B D F H I J|g A B D F|g A B D F H].
  - apply waiting with g; try congruence; apply not_in_snoc; auto.
  - apply released with g; try congruence. apply in_app_iff; auto.
  - apply gone with g; try congruence; [apply in_app_iff; auto|apply not_in_snoc; auto].
Qed.

Lemma stage_length f i s h : stage f i s h -> i < length (guards s).
Proof. intros [g A|g A|g A]; apply nth_error_Some; congruence. Qed.

Lemma stage_step f i s h e s' :
  stage f i s h -> owned f i s -> e <> Construct f -> e <> Move i -> step s e = Some s' ->
  stage f i s' (h ++ [e]) /\ owned f i s'.
Proof.
  intros St O N1 N2 E. assert (Li := stage_length _ _ _ _ St).
  destruct e as [f'|k|k|k]; cbn [step] in E.
  - injection E as <-. split.
    + apply stage_kept with s; auto; try discriminate. cbn [guards]. apply nth_error_app1; auto.
    + intros j g. cbn [guards]. rewrite nth_snoc. destruct (j =? length (guards s)); [|apply O].
      intros [= <-] F. cbn in F. congruence.
  - destruct (live s k) as [g|] eqn:L; [|discriminate]. injection E as <-.
    apply nth_live in L as (L1 & L2 & L3). split.
    + apply stage_kept with s; auto; try discriminate. cbn [guards]. apply nth_error_app1; auto.
    + intros j g'. cbn [guards]. rewrite nth_snoc. destruct (j =? length (guards s)); [|apply O].
      intros [= <-] F. cbn in F. assert (k = i) by eauto. congruence.
  - destruct (live s k) as [g|] eqn:L; [|discriminate]. injection E as <-.
    apply nth_live in L as (L1 & L2 & L3).
    assert (U := nth_update (guards s) k {| function := function g; execute_on_destruction := false; alive := true |}).
    rewrite (proj2 (Nat.ltb_lt _ _) L3) in U. split.
    + destruct (Nat.eqb_spec i k) as [<-|N].
      * specialize (U i). rewrite Nat.eqb_refl in U. cbn [andb] in U.
        destruct St as [g0 A B D F H I J|g0 A B D F|g0 A B D F H].
        -- eapply released; [exact U|reflexivity|exact H|]. apply in_app_iff. cbn; auto.
        -- eapply released; [exact U|reflexivity|exact D|]. apply in_app_iff. cbn; auto.
        -- congruence.
      * apply stage_kept with s; auto; try congruence. cbn [guards]. rewrite U, (proj2 (Nat.eqb_neq _ _) N). auto.
    + intros j g'. cbn [guards]. rewrite U. destruct (Nat.eqb_spec j k) as [->|N]; [|apply O].
      cbn [andb]. intros [= <-] F. apply (O k g); auto.
  - destruct (live s k) as [g|] eqn:L; [|discriminate]. injection E as <-.
    apply nth_live in L as (L1 & L2 & L3).
    assert (U := nth_update (guards s) k {| function := function g; execute_on_destruction := execute_on_destruction g; alive := false |}).
    rewrite (proj2 (Nat.ltb_lt _ _) L3) in U. split.
    + destruct (Nat.eqb_spec i k) as [<-|N].
      * specialize (U i). rewrite Nat.eqb_refl in U. cbn [andb] in U.
        destruct St as [g0 A B D F H I J|g0 A B D F|g0 A B D F H].
        -- rewrite L1 in A. injection A as <-. eapply gone; [exact U|reflexivity| |apply in_app_iff; cbn; auto|apply not_in_snoc; congruence].
           unfold calls in *. cbn [called]. rewrite D, calls_snoc, H, B, Nat.eqb_refl. auto.
        -- rewrite L1 in A. injection A as <-. eapply released; [exact U|exact B| |apply in_app_iff; cbn; auto].
           unfold calls in *. cbn [called]. rewrite B, app_nil_r. auto.
        -- congruence.
      * apply stage_kept with s; auto; try congruence. { cbn [guards]. rewrite U, (proj2 (Nat.eqb_neq _ _) N). auto. }
        unfold calls. cbn [called]. destruct (execute_on_destruction g); [|rewrite app_nil_r; auto].
        rewrite calls_snoc. destruct (Nat.eqb_spec (function g) f) as [F|]; [|lia]. assert (k = i) by eauto. congruence.
    + intros j g'. cbn [guards]. rewrite U. destruct (Nat.eqb_spec j k) as [->|N]; [|apply O].
      cbn [andb]. intros [= <-] F. apply (O k g); auto.
Qed.

Lemma nobody h s f : steps initial h = Some s -> ~ In (Construct f) h ->
  calls f s = 0 /\ forall j g, nth_error (guards s) j = Some g -> function g <> f.
Proof.
  intros E. pattern h, s. revert h s E. apply history_ind.
  - intros _. split; auto. intros [|j] g H; discriminate H.
  - intros h s e s' _ IH E N. rewrite in_app_iff in N.
    destruct IH as [IH1 IH2]; [tauto|].
    destruct e as [f'|k|k|k]; cbn [step] in E.
    + injection E as <-. split; auto. intros j g. cbn [guards]. rewrite nth_snoc.
      destruct (j =? length (guards s)); eauto. intros [= <-] F. cbn in F. subst. cbn in N; tauto.
    + destruct (live s k) as [g|] eqn:L; [|discriminate]. injection E as <-. apply nth_live in L as (L1 & _).
      split; auto. intros j g'. cbn [guards]. rewrite nth_snoc. destruct (j =? length (guards s)); eauto.
      intros [= <-]. cbn. eauto.
    + destruct (live s k) as [g|] eqn:L; [|discriminate]. injection E as <-. apply nth_live in L as (L1 & _).
      split; auto. intros j g'. cbn [guards]. rewrite nth_update.
      destruct ((j =? k) && (k <? length (guards s))); eauto. intros [= <-]. cbn. eauto.
    + destruct (live s k) as [g|] eqn:L; [|discriminate]. injection E as <-. apply nth_live in L as (L1 & _).
      split.
      * unfold calls in *. cbn [called]. destruct (execute_on_destruction g); [|rewrite app_nil_r; auto].
        rewrite calls_snoc. destruct (Nat.eqb_spec (function g) f); [|lia]. exfalso. eapply IH2; eauto.
      * intros j g'. cbn [guards]. rewrite nth_update.
        destruct ((j =? k) && (k <? length (guards s))); eauto. intros [= <-]. cbn. eauto.
Qed.

Lemma stages f h1 h2 s : steps initial (h1 ++ Construct f :: h2) = Some s ->
  ~ In (Construct f) h1 -> ~ In (Construct f) h2 -> ~ In (Move (created h1)) h2 ->
  stage f (created h1) s h2 /\ owned f (created h1) s.
Proof.
  revert s. induction h2 as [|e h2 IH] using rev_ind; intros s E N1 N2 N3.
  - rewrite steps_app in E. destruct (steps initial h1) as [s1|] eqn:E1; [|discriminate].
    cbn in E. injection E as <-. destruct (nobody _ _ _ E1 N1) as [C F].
    assert (Len := guards_created _ _ E1). split.
    + eapply waiting; try (intros []); auto.
      * cbn [guards]. rewrite nth_snoc, Len, Nat.eqb_refl. reflexivity.
      * reflexivity.
      * reflexivity.
      * reflexivity.
    + intros j g. cbn [guards]. rewrite nth_snoc, Len. destruct (Nat.eqb_spec j (created h1)); auto.
      intros A B. exfalso. eapply F; eauto.
  - rewrite in_app_iff in N2, N3. cbn [In] in *.
    change (h1 ++ Construct f :: h2 ++ [e]) with (h1 ++ (Construct f :: h2) ++ [e]) in E.
    rewrite app_assoc, steps_app in E.
    destruct (steps initial (h1 ++ Construct f :: h2)) as [s1|] eqn:E1; [|discriminate].
    cbn in E. destruct (step s1 e) as [s2|] eqn:E2; [|discriminate]. injection E as <-.
    destruct (IH s1) as [St O]; auto.
    eapply stage_step; eauto; intros ->; tauto.
Qed.

(** The function of a guard that is not moved is called exactly once if the guard is destroyed
    and was not released, and never otherwise. *)
Theorem C55_once f h1 h2 s :
  steps initial (h1 ++ Construct f :: h2) = Some s ->
  ~ In (Construct f) h1 -> ~ In (Construct f) h2 -> ~ In (Move (created h1)) h2 ->
  calls f s <= 1 /\
  (calls f s = 1 <-> In (Destroy (created h1)) h2 /\ ~ In (Release (created h1)) h2).
Proof.
  intros E N1 N2 N3. destruct (stages _ _ _ _ E N1 N2 N3) as [[g A B D F H I J|g A B D F|g A B D F H] _].
  - rewrite H. split; [lia|]. split; [lia|tauto].
  - rewrite D. split; [lia|]. split; [lia|tauto].
  - rewrite D. split; [lia|]. split; auto.
Qed.
Print Assumptions C55_once.

(** Releasing a guard that was not moved before stops the function for good, also if the guard
    is moved afterwards. *)
Theorem C55_release f h1 h2 h3 s :
  steps initial (h1 ++ Construct f :: h2 ++ Release (created h1) :: h3) = Some s ->
  ~ In (Construct f) h1 -> ~ In (Construct f) (h2 ++ h3) -> ~ In (Move (created h1)) h2 ->
  calls f s = 0.
Proof.
  intros E N1 N2 N3. rewrite in_app_iff in N2.
  change (h1 ++ Construct f :: h2 ++ Release (created h1) :: h3)
    with (h1 ++ (Construct f :: h2 ++ Release (created h1) :: h3)) in E.
  assert (X : h1 ++ Construct f :: h2 ++ Release (created h1) :: h3 =
    (h1 ++ Construct f :: (h2 ++ [Release (created h1)])) ++ h3).
  { rewrite <- !app_assoc. cbn. rewrite <- !app_assoc. reflexivity. }
  rewrite X in E. rewrite steps_app in E.
  destruct (steps initial (h1 ++ Construct f :: (h2 ++ [Release (created h1)]))) as [s1|] eqn:E1; [|discriminate].
  destruct (stages f h1 (h2 ++ [Release (created h1)]) s1) as [St O]; auto.
  { rewrite in_app_iff. cbn [In]. intros [H|[H|[]]]; [tauto|discriminate]. }
  { rewrite in_app_iff. cbn [In]. intros [H|[H|[]]]; [tauto|discriminate]. }
  assert (Inv : calls f s1 = 0 /\ forall j g, nth_error (guards s1) j = Some g -> function g = f -> execute_on_destruction g = false).
  { destruct St as [g A B D F H I J|g A B D F|g A B D F H].
    - exfalso. apply J, in_app_iff. cbn; auto.
    - split; auto. intros j g' G F'. rewrite (O _ _ G F') in G. congruence.
    - exfalso. apply H, in_app_iff. cbn; auto. }
  assert (N : ~ In (Construct f) h3) by tauto.
  clear E1 St O X N1 N2 N3. revert s1 E Inv N. induction h3 as [|e h3 IH]; intros s1 E Inv N.
  - injection E as <-. apply Inv.
  - cbn in E. destruct (step s1 e) as [s2|] eqn:E2; [|discriminate].
    apply (IH s2); auto; [|cbn in N; tauto]. destruct Inv as [C F].
    destruct e as [f'|k|k|k]; cbn [step] in E2.
    + injection E2 as <-. split; auto. intros j g. cbn [guards]. rewrite nth_snoc.
      destruct (j =? length (guards s1)); eauto. intros [= <-] H. cbn in H. subst. cbn in N; tauto.
    + destruct (live s1 k) as [g|] eqn:L; [|discriminate]. injection E2 as <-. apply nth_live in L as (L1 & _).
      split; auto. intros j g'. cbn [guards]. rewrite nth_snoc. destruct (j =? length (guards s1)); eauto.
      intros [= <-]. cbn. eauto.
    + destruct (live s1 k) as [g|] eqn:L; [|discriminate]. injection E2 as <-. apply nth_live in L as (L1 & _).
      split; auto. intros j g'. cbn [guards]. rewrite nth_update.
      destruct ((j =? k) && (k <? length (guards s1))); eauto. intros [= <-]. cbn. eauto.
    + destruct (live s1 k) as [g|] eqn:L; [|discriminate]. injection E2 as <-. apply nth_live in L as (L1 & _).
      split.
      * unfold calls in *. cbn [called]. destruct (execute_on_destruction g) eqn:X; [|rewrite app_nil_r; auto].
        rewrite calls_snoc. destruct (Nat.eqb_spec (function g) f) as [Y|]; [|lia]. rewrite (F _ _ L1 Y) in X. discriminate.
      * intros j g'. cbn [guards]. rewrite nth_update.
        destruct ((j =? k) && (k <? length (guards s1))); eauto. intros [= <-]. cbn. eauto.
Qed.
Print Assumptions C55_release.

(** Moving a guard does not hand over the responsibility: the function is called by both. *)
Theorem C55_moved_refuted :
  ~ (forall f h1 h2 s,
       steps initial (h1 ++ Construct f :: h2) = Some s ->
       ~ In (Construct f) h1 -> ~ In (Construct f) h2 -> calls f s <= 1).
Proof.
  intros H. specialize (H 0 [] [Move 0; Destroy 0; Destroy 1] _ eq_refl).
  cbn in H. assert (2 <= 1); [|lia]. apply H; try tauto. intros [A|[A|[A|[]]]]; discriminate.
Qed.
Print Assumptions C55_moved_refuted.

(** Nor does releasing the guard that was moved from stop the other one. *)
Theorem C55_release_after_move_refuted :
  ~ (forall f h1 h2 s,
       steps initial (h1 ++ Construct f :: h2) = Some s ->
       ~ In (Construct f) h1 -> ~ In (Construct f) h2 -> In (Release (created h1)) h2 -> calls f s = 0).
Proof.
  intros H. specialize (H 0 [] [Move 0; Release 0; Destroy 0; Destroy 1] _ eq_refl).
  cbn in H. assert (1 = 0); [|discriminate]. apply H; try tauto. intros [A|[A|[A|[A|[]]]]]; discriminate.
Qed.
Print Assumptions C55_release_after_move_refuted.

(** Two nested guards, the inner one released. *)
Example C55_case :
  option_map called (steps initial [Construct 7; Construct 8; Release 1; Release 1; Destroy 1; Destroy 0]) = Some [7] /\
  option_map called (steps initial [Construct 7; Construct 8; Destroy 1; Destroy 0]) = Some [8; 7] /\
  steps initial [Construct 7; Destroy 0; Destroy 0] = None.
Proof. repeat split. Qed.
