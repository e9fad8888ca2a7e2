(** * Proofs about references to Python objects *)
From Coq Require Import ZArith List Bool Arith Lia Permutation.
From Verif Require Import StringModel RefModel RefSpec.
Import ListNotations.

Lemma number_app l m i : number (l ++ m) i = number l i + number m i.
Proof. apply count_occ_app. Qed.
Lemma number_cons j l i : number (j :: l) i = (if Nat.eq_dec j i then 1 else 0) + number l i.
Proof. unfold number; cbn; destruct (Nat.eq_dec j i); reflexivity. Qed.
Lemma number_in l i : In i l <-> 0 < number l i.
Proof. apply count_occ_In. Qed.

Lemma nth_set_same h i c d : nth_error h i = Some d -> nth_error (set h i c) i = Some c.
Proof. revert i; induction h as [|e h IH]; intros [|i] H; cbn in *; try discriminate; eauto. Qed.
Lemma nth_set_other h i j c : i <> j -> nth_error (set h i c) j = nth_error h j.
Proof.
  revert i j; induction h as [|e h IH]; intros [|i] [|j] H; cbn in *; try reflexivity; try contradiction.
  apply IH; congruence.
Qed.
Lemma length_set h i c : length (set h i c) = length h.
Proof. revert i; induction h as [|e h IH]; intros [|i]; cbn; auto. Qed.

Lemma items_set h i c d j : nth_error h i = Some d ->
  number (flat_map cell_items (set h i c)) j + number (cell_items d) j =
  number (flat_map cell_items h) j + number (cell_items c) j.
Proof.
  revert i; induction h as [|e h IH]; intros [|i] H; cbn in *; try discriminate.
  - injection H as ->. rewrite !number_app. lia.
  - rewrite !number_app. specialize (IH _ H). lia.
Qed.
Lemma size_cons c h : size (c :: h) = cell_size c + size h.
Proof. reflexivity. Qed.
Lemma size_set h i c d : nth_error h i = Some d -> size (set h i c) + cell_size d = size h + cell_size c.
Proof.
  revert i; induction h as [|e h IH]; intros [|i] H; try discriminate.
  - injection H as ->. cbn [set]. rewrite !size_cons. lia.
  - specialize (IH i H). cbn [set]. rewrite !size_cons. lia.
Qed.

Lemma counted_number h o o' : (forall i, number o i = number o' i) -> counted h o -> counted h o'.
Proof.
  intros E C i. specialize (C i). unfold references in *. rewrite number_app in *. rewrite <- E.
  destruct (nth_error h i) as [[|n x]|]; auto.
Qed.
Lemma counted_perm h o o' : Permutation o o' -> counted h o -> counted h o'.
Proof.
  intros P. apply counted_number. intros i. unfold number. apply (proj1 (Permutation_count_occ Nat.eq_dec o o') P).
Qed.

Lemma referenced_alive h o i : counted h o -> In i (references h o) -> alive h i.
Proof.
  intros C I. apply number_in in I. specialize (C i). unfold alive.
  destruct (nth_error h i) as [[|n x]|]; eauto; lia.
Qed.

(** The heap after some calls: objects stay what they are *)
Definition evolves (h0 h : heap) : Prop :=
  length h = length h0 /\ forall i n x, nth_error h i = Some (Live n x) -> is h0 i x.
(** Objects are freed after those that refer to them; the newest first *)
Inductive freed_in_order (h0 : heap) : list nat -> Prop :=
| FreedNone : freed_in_order h0 []
| FreedMore i l : freed_in_order h0 l -> alive h0 i -> (forall j x, is h0 j x -> In i (items x) -> In j l) ->
    freed_in_order h0 (i :: l).
Definition orderly (h0 h : heap) : Prop :=
  exists l, freed_in_order h0 l /\ forall i, In i l <-> (alive h0 i /\ ~ alive h i).

Lemma alive_set h i n x n' x' : nth_error h i = Some (Live n x) -> forall j, alive (set h i (Live n' x')) j <-> alive h j.
Proof.
  intros E j. unfold alive. destruct (Nat.eq_dec i j) as [->|D].
  - rewrite (nth_set_same _ _ _ _ E), E. split; eauto.
  - rewrite nth_set_other by exact D. reflexivity.
Qed.

Lemma evolves_set h0 h i n n' x : nth_error h i = Some (Live n x) -> evolves h0 h -> evolves h0 (set h i (Live n' x)).
Proof.
  intros E [L H]. split. { rewrite length_set; exact L. }
  intros j m y K. destruct (Nat.eq_dec i j) as [->|D].
  - rewrite (nth_set_same _ _ _ _ E) in K. injection K as <- <-. eauto.
  - rewrite nth_set_other in K by exact D. eauto.
Qed.
Lemma orderly_set h0 h i n n' x : nth_error h i = Some (Live n x) -> orderly h0 h -> orderly h0 (set h i (Live n' x)).
Proof.
  intros E (l & F & I). exists l; split; [exact F|]. intros j. rewrite I, (alive_set _ _ _ _ n' x E j). reflexivity.
Qed.

Lemma incref_counted h0 h o i : counted h o -> alive h i -> evolves h0 h -> orderly h0 h ->
  exists h', incref h i = Ok h' /\ counted h' (i :: o) /\ evolves h0 h' /\ orderly h0 h'.
Proof.
  intros C (n & x & E) V O. unfold incref. rewrite E. eexists; split; [reflexivity|].
  split; [|split; [eapply evolves_set; eauto|eapply orderly_set; eauto]].
  intros j. pose proof (C j) as Cj. unfold references in *. rewrite number_app in *. rewrite number_cons.
  pose proof (items_set h i (Live (S n) x) _ j E) as I. cbn [cell_items] in I.
  destruct (Nat.eq_dec i j) as [->|D].
  - rewrite (nth_set_same _ _ _ _ E). rewrite E in Cj. lia.
  - rewrite nth_set_other by exact D. destruct (nth_error h j) as [[|m y]|]; lia.
Qed.

Lemma free_evolves h0 h i n x : nth_error h i = Some (Live n x) -> evolves h0 h -> evolves h0 (set h i Freed).
Proof.
  intros E [L H]. split. { rewrite length_set; exact L. }
  intros j m y K. destruct (Nat.eq_dec i j) as [->|D].
  - rewrite (nth_set_same _ _ _ _ E) in K. discriminate.
  - rewrite nth_set_other in K by exact D. eauto.
Qed.

Lemma is_unique h i x y : is h i x -> is h i y -> x = y.
Proof. intros (n & A) (m & B). congruence. Qed.

Lemma in_items h j n x i : nth_error h j = Some (Live n x) -> In i (items x) -> In i (flat_map cell_items h).
Proof. intros E I. apply in_flat_map. exists (Live n x). split; [eapply nth_error_In; eauto|exact I]. Qed.

Lemma release_counted h0 fuel : forall work h o, counted h (work ++ o) -> size h + length work <= fuel ->
  evolves h0 h -> orderly h0 h ->
  exists h', release fuel work h = Ok h' /\ counted h' o /\ evolves h0 h' /\ orderly h0 h'.
Proof.
  induction fuel as [|fuel IH]; intros [|i work] h o C F V O; try (exists h; cbn; auto; fail).
  { cbn in F; lia. }
  assert (A : alive h i). { eapply referenced_alive; [exact C|]. left; reflexivity. }
  destruct A as (n & x & E). pose proof (C i) as Ci. rewrite E in Ci. destruct Ci as [Ci P].
  cbn [release]. rewrite E. destruct n as [|[|n]]; [lia| |].
  - assert (Z : number (flat_map cell_items h) i = 0).
    { unfold references in Ci. rewrite number_app in Ci. cbn [app] in Ci. rewrite number_cons in Ci.
      destruct (Nat.eq_dec i i); [lia|congruence]. }
    apply IH.
    + intros j. pose proof (C j) as Cj. pose proof (items_set h i Freed _ j E) as I. cbn [cell_items] in I.
      unfold references in *. rewrite <- !app_assoc in *. cbn [app] in *.
      rewrite !number_app in *. rewrite ?number_cons, ?number_app in *. cbn [number count_occ] in *.
      change (number [] j) with 0 in I.
      destruct (Nat.eq_dec i j) as [->|D].
      * rewrite (nth_set_same _ _ _ _ E). rewrite E in Cj. destruct (Nat.eq_dec j j); [lia|congruence].
      * rewrite nth_set_other by exact D. destruct (nth_error h j) as [[|m y]|]; lia.
    + pose proof (size_set h i Freed _ E) as S. cbn in S, F. rewrite app_length. lia.
    + eapply free_evolves; eauto.
    + destruct O as (l & Fl & I). exists (i :: l). destruct V as [L V]. split.
      * constructor; [exact Fl| |].
        { destruct (V _ _ _ E) as (m & K). exists m, x. exact K. }
        intros j y J K. apply I. split. { destruct J as (m & J). exists m, y. exact J. }
        intros (m & z & B). pose proof (V _ _ _ B) as W. rewrite (is_unique _ _ _ _ W J) in B.
        pose proof (in_items _ _ _ _ _ B K) as Q. apply number_in in Q. lia.
      * intros j. cbn [In]. rewrite I. split.
        -- intros [<- | [J K]].
           ++ split. { destruct (V _ _ _ E) as (m & Q). exists m, x. exact Q. }
              intros (m & z & B). rewrite (nth_set_same _ _ _ _ E) in B. discriminate.
           ++ split; [exact J|]. intros (m & z & B). apply K. destruct (Nat.eq_dec i j) as [->|D].
              ** rewrite (nth_set_same _ _ _ _ E) in B. discriminate.
              ** rewrite nth_set_other in B by exact D. exists m, z. exact B.
        -- intros [J K]. destruct (Nat.eq_dec i j) as [->|D]; [left; reflexivity|]. right. split; [exact J|].
           intros (m & z & B). apply K. exists m, z. rewrite nth_set_other by exact D. exact B.
  - apply IH.
    + intros j. pose proof (C j) as Cj. pose proof (items_set h i (Live (S n) x) _ j E) as I. cbn [cell_items] in I.
      unfold references in *. cbn [app] in *. rewrite number_cons, !number_app in *.
      destruct (Nat.eq_dec i j) as [->|D].
      * rewrite (nth_set_same _ _ _ _ E). rewrite E in Cj. lia.
      * rewrite nth_set_other by exact D. destruct (nth_error h j) as [[|m y]|]; lia.
    + pose proof (size_set h i (Live (S n) x) _ E) as S. cbn in S, F. lia.
    + eapply evolves_set; eauto.
    + eapply orderly_set; eauto.
Qed.

Lemma decref_counted h0 h o i : counted h (i :: o) -> evolves h0 h -> orderly h0 h ->
  exists h', decref h i = Ok h' /\ counted h' o /\ evolves h0 h' /\ orderly h0 h'.
Proof. intros C V O. apply (release_counted h0 _ [i] h o); auto. cbn. lia. Qed.

Lemma evolves_refl h : evolves h h.
Proof. split; [reflexivity|]. intros i n x E. exists n. exact E. Qed.
Lemma orderly_refl h : orderly h h.
Proof. exists []. split; [constructor|]. intros i. cbn. tauto. Qed.

Lemma oldest h0 l : freed_in_order h0 l -> l = [] \/ exists i, In i l /\ alive h0 i /\ forall j x, is h0 j x -> ~ In i (items x).
Proof.
  induction 1 as [|i l F IH A H]; [left; reflexivity|right].
  destruct IH as [->|(k & I & B & N)].
  - exists i. split; [left; reflexivity|]. split; [exact A|]. intros j x J K. exact (H j x J K).
  - exists k. split; [right; exact I|]. auto.
Qed.

Lemma nth_ext_error {A} (l m : list A) : (forall i, nth_error l i = nth_error m i) -> l = m.
Proof.
  revert m; induction l as [|a l IH]; intros [|b m] H.
  - reflexivity.
  - specialize (H 0). discriminate.
  - specialize (H 0). discriminate.
  - pose proof (H 0) as E. cbn in E. injection E as ->. f_equal. apply IH. intros i. exact (H (S i)).
Qed.

Lemma restored h0 h o o' : counted h0 o -> counted h o' -> (forall i, number o i = number o' i) -> evolves h0 h -> orderly h0 h -> h = h0.
Proof.
  intros C C' P [L V] (l & F & I).
  destruct (oldest _ _ F) as [->|(i & Il & A & N)].
  - assert (S : forall i x, is h0 i x <-> is h i x).
    { intros i x. split.
      - intros (n & E). destruct (I i) as [_ K].
        assert (B : alive h i).
        { specialize (C' i). destruct (nth_error h i) as [[|m y]|] eqn:Q.
          - exfalso. apply K. split; [exists n, x; exact E|]. intros (m & y & R). congruence.
          - exists m, y. exact Q.
          - exfalso. apply K. split; [exists n, x; exact E|]. intros (m & y & R). congruence. }
        destruct B as (m & y & B). pose proof (V _ _ _ B) as W.
        assert (y = x) as -> by (eapply is_unique; [exact W|exists n; exact E]). exists m. exact B.
      - intros (n & E). eauto. }
    assert (E : flat_map cell_items h = flat_map cell_items h0).
    { assert (G : forall a b : heap, length a = length b -> (forall i x, is a i x <-> is b i x) -> flat_map cell_items a = flat_map cell_items b).
      { clear. induction a as [|c a IH]; intros [|d b] L S; cbn in *; try discriminate; [reflexivity|].
        f_equal.
        - destruct c as [|n x], d as [|m y]; cbn.
          + reflexivity.
          + exfalso. destruct (proj2 (S 0 y)) as (k & K). { exists m; reflexivity. } cbn in K. discriminate.
          + exfalso. destruct (proj1 (S 0 x)) as (k & K). { exists n; reflexivity. } cbn in K. discriminate.
          + destruct (proj1 (S 0 x)) as (k & K). { exists n; reflexivity. } cbn in K. injection K as _ <-. reflexivity.
        - apply IH. { congruence. } intros i x. exact (S (Datatypes.S i) x). }
      apply G. { exact L. } intros i x. symmetry. apply S. }
    apply nth_ext_error. intros i. pose proof (C i) as A. pose proof (C' i) as B. unfold references in *.
    rewrite number_app in *. rewrite E in B. rewrite <- P in B.
    destruct (nth_error h i) as [[|m y]|] eqn:Q, (nth_error h0 i) as [[|n x]|] eqn:R; try reflexivity; try lia.
    + apply nth_error_None in R. assert (nth_error h i <> None) as T by congruence. apply nth_error_Some in T. lia.
    + destruct A as [A _], B as [B _]. assert (y = x) as -> by (destruct (V _ _ _ Q) as (k & K); congruence). congruence.
    + apply nth_error_None in Q. assert (nth_error h0 i <> None) as T by congruence. apply nth_error_Some in T. lia.
  - exfalso. apply I in Il. destruct Il as [_ D]. specialize (C i). destruct A as (n & x & A). rewrite A in C.
    destruct C as [C Pn]. unfold references in C. rewrite number_app in C.
    assert (Z : number (flat_map cell_items h0) i = 0).
    { destruct (number (flat_map cell_items h0) i) eqn:Q; [reflexivity|].
      assert (K : In i (flat_map cell_items h0)) by (apply number_in; lia).
      apply in_flat_map in K. destruct K as ([|m y] & K & J); [destruct J|]. apply In_nth_error in K. destruct K as (j & K).
      exfalso. apply (N j y); [exists m; exact K|exact J]. }
    specialize (C' i). unfold references in C'. rewrite number_app in C'. rewrite <- P in C'.
    destruct (nth_error h i) as [[|m y]|] eqn:Q; try lia. apply D. exists m, y. exact Q.
Qed.

Lemma reaches_alive h0 h o i : counted h o -> evolves h0 h -> reaches h0 o i -> alive h i.
Proof.
  intros C [_ V] R. induction R as [i I|i x j R IH J K].
  - eapply referenced_alive; [exact C|]. apply in_or_app. left; exact I.
  - destruct IH as (n & y & E). pose proof (V _ _ _ E) as W. rewrite (is_unique _ _ _ _ J W) in K.
    eapply referenced_alive; [exact C|]. apply in_or_app. right. eapply in_items; eauto.
Qed.

(** ** Histories *)
Lemma instance_at l1 v r l2 : ~ In v (map fst l1) -> instance (l1 ++ (v, r) :: l2) v = Some r.
Proof.
  induction l1 as [|[w s] l1 IH]; cbn; intros N; [rewrite Nat.eqb_refl; reflexivity|].
  destruct (Nat.eqb_spec w v); [exfalso; apply N; auto|]. apply IH. tauto.
Qed.
Lemma replace_at l1 v r l2 r' : ~ In v (map fst l1) -> replace (l1 ++ (v, r) :: l2) v r' = l1 ++ (v, r') :: l2.
Proof.
  induction l1 as [|[w s] l1 IH]; cbn; intros N; [rewrite Nat.eqb_refl; reflexivity|].
  destruct (Nat.eqb_spec w v); [exfalso; apply N; auto|]. rewrite IH by tauto. reflexivity.
Qed.
Lemma discard_at l1 v r l2 : ~ In v (map fst l1) -> discard (l1 ++ (v, r) :: l2) v = l1 ++ l2.
Proof.
  induction l1 as [|[w s] l1 IH]; cbn; intros N; [rewrite Nat.eqb_refl; reflexivity|].
  destruct (Nat.eqb_spec w v); [exfalso; apply N; auto|]. rewrite IH by tauto. reflexivity.
Qed.

Lemma taken_number o m m' i : taken o m m' -> number m i = number (pointee o) i + number m' i.
Proof. destruct 1; [reflexivity|]. cbn [pointee]. rewrite !number_app, !number_cons. change (number [] i) with 0. lia. Qed.

Lemma same_spec a b : same a b = true <-> a = b.
Proof.
  destruct a as [i|], b as [j|]; cbn; try (split; [discriminate|discriminate]); try tauto.
  rewrite Nat.eqb_eq. split; congruence.
Qed.

Definition invariant (h0 : heap) (l : ledger) (w : world) : Prop :=
  counted (objects w) (held l) /\ owned w = inst l /\ borrowed w = lent l /\ evolves h0 (objects w) /\ orderly h0 (objects w).

Definition hold (l : list (nat * option nat)) : list nat := flat_map (fun e => pointee (snd e)) l.
Lemma held_number m l b i : number (held (Ledger m l b)) i = number m i + number (hold l) i.
Proof. unfold held; cbn. rewrite number_app. reflexivity. Qed.
Lemma hold_at l1 v r l2 i : number (hold (l1 ++ (v, r) :: l2)) i = number (pointee r) i + number (hold (l1 ++ l2)) i.
Proof. unfold hold. rewrite !flat_map_app. cbn [flat_map snd]. rewrite !number_app. lia. Qed.
Lemma hold_cons v r l i : number (hold ((v, r) :: l)) i = number (pointee r) i + number (hold l) i.
Proof. unfold hold; cbn [flat_map snd]. apply number_app. Qed.

Ltac counts := let i := fresh "i" in intros i; cbn [app]; rewrite ?number_cons, ?number_app, ?held_number, ?number_cons, ?hold_at, ?hold_cons; cbn [pointee]; rewrite ?number_cons; cbn [number count_occ]; try lia.

Lemma step_invariant debug h0 l c l' w : invariant h0 l w -> entitled h0 l c l' ->
  exists w', step debug c w = Ok w' /\ invariant h0 l' w'.
Proof.
  intros (C & B & D & V & O) E. destruct w as [h il bl]; cbn [objects owned borrowed] in *.
  destruct E; cbn [inst lent] in *; subst il bl; cbn [step].
  - (* Obtain *)
    destruct (incref_counted h0 h _ i C (reaches_alive _ _ _ _ C V H) V O) as (h' & R & C' & V' & O').
    rewrite R; cbn [bind]. eexists; split; [reflexivity|]. split; [|cbn; auto].
    eapply counted_number; [|exact C']. counts.
  - (* GiveUp *)
    assert (C1 : counted h (i :: held (Ledger m' l b))).
    { eapply counted_number; [|exact C]. intros j. rewrite held_number, (taken_number _ _ _ j H). rewrite number_cons, held_number. cbn [pointee]. rewrite number_cons. change (number [] j) with 0. lia. }
    destruct (decref_counted h0 h _ i C1 V O) as (h' & R & C' & V' & O').
    rewrite R; cbn [bind]. eexists; split; [reflexivity|]. split; [|cbn; auto]. exact C'.
  - eexists; split; [reflexivity|]. split; [|cbn; auto]. eapply counted_number; [|exact C]. counts.
  - eexists; split; [reflexivity|]. split; [|cbn; auto]. eapply counted_number; [|exact C].
    intros j. rewrite !held_number, (taken_number _ _ _ j H0), hold_cons. lia.
  - (* Keep *)
    destruct (incref_counted h0 h _ i C (reaches_alive _ _ _ _ C V H0) V O) as (h' & R & C' & V' & O').
    cbn [reference_to inc_ref]. rewrite R; cbn [bind]. eexists; split; [reflexivity|]. split; [|cbn; auto].
    eapply counted_number; [|exact C']. counts.
  - (* Assign the same *)
    subst l. rewrite instance_at by assumption. unfold assign. rewrite (proj2 (same_spec o o) eq_refl). cbn [bind fst snd].
    eexists; split; [reflexivity|]. rewrite replace_at by assumption. split; [|cbn; auto]. exact C.
  - (* Assign *)
    subst l. rewrite instance_at by assumption. unfold assign.
    destruct (same o o') eqn:S; [apply same_spec in S; contradiction|].
    destruct o as [i|].
    + assert (C1 : counted h (i :: held (Ledger m' (l1 ++ (v, o') :: l2) b))).
      { eapply counted_number; [|exact C]. intros j. rewrite number_cons, !held_number, (taken_number _ _ _ j H2), !hold_at.
        cbn [pointee]. rewrite number_cons. cbn. lia. }
      destruct (decref_counted h0 h _ i C1 V O) as (h' & R & C' & V' & O').
      cbn [dec_ref]. rewrite R; cbn [bind fst snd]. eexists; split; [reflexivity|]. rewrite replace_at by assumption.
      split; [|cbn; auto]. exact C'.
    + cbn [bind fst snd]. eexists; split; [reflexivity|]. rewrite replace_at by assumption. split; [|cbn; auto].
      eapply counted_number; [|exact C]. intros j. rewrite !held_number, (taken_number _ _ _ j H2), !hold_at. cbn. lia.
  - (* Store *)
    subst l. rewrite instance_at by assumption. cbn [store bind]. eexists; split; [reflexivity|]. rewrite replace_at by assumption.
    split; [|cbn; auto].
    eapply counted_number; [|exact C]. intros j. rewrite !held_number, (taken_number _ _ _ j H1), !hold_at. cbn. lia.
  - (* Increment *)
    subst l. rewrite instance_at by assumption. cbn [inc_ref].
    assert (A : alive h i). { eapply referenced_alive; [exact C|]. apply number_in. unfold references. rewrite number_app, held_number, hold_at. cbn [pointee]. rewrite number_cons. destruct (Nat.eq_dec i i); [lia|congruence]. }
    destruct (incref_counted h0 h _ i C A V O) as (h' & R & C' & V' & O').
    rewrite R; cbn [bind]. eexists; split; [reflexivity|]. split; [|cbn; auto]. eapply counted_number; [|exact C']. counts.
  - (* End *)
    subst l. rewrite instance_at by assumption. rewrite discard_at by assumption. destruct o as [i|]; cbn [destruct_reference].
    + assert (C1 : counted h (i :: held (Ledger m (l1 ++ l2) b))).
      { eapply counted_number; [|exact C]. intros j. rewrite number_cons, !held_number, !hold_at. cbn [pointee]. rewrite number_cons. cbn. lia. }
      destruct (decref_counted h0 h _ i C1 V O) as (h' & R & C' & V' & O').
      cbn [dec_ref]. rewrite R; cbn [bind]. eexists; split; [reflexivity|]. split; [|cbn; auto]. exact C'.
    + cbn [bind]. eexists; split; [reflexivity|]. split; [|cbn; auto].
      eapply counted_number; [|exact C]. intros j. rewrite !held_number, !hold_at. cbn. lia.
  - (* Use *)
    subst l. rewrite instance_at by assumption. cbn [use].
    assert (A : alive h i). { eapply referenced_alive; [exact C|]. apply number_in. unfold references. rewrite number_app, held_number, hold_at. cbn [pointee]. rewrite number_cons. destruct (Nat.eq_dec i i); [lia|congruence]. }
    destruct A as (n & x & A). rewrite A. cbn [bind]. eexists; split; [reflexivity|]. split; [|cbn; auto]. exact C.
  - eexists; split; [reflexivity|]. split; [|cbn; auto]. exact C.
  - subst b. rewrite instance_at by assumption. cbn [use].
    destruct (reaches_alive _ _ _ _ C V H1) as (n & x & A). rewrite A. cbn [bind].
    eexists; split; [reflexivity|]. split; [|cbn; auto]. exact C.
Qed.

Lemma run_invariant debug h0 calls : forall l l' w, invariant h0 l w -> entitled_all h0 l calls l' ->
  exists w', run debug calls w = Ok w' /\ invariant h0 l' w'.
Proof.
  induction calls as [|c calls IH]; intros l l' w I E; inversion E; subst.
  - exists w; split; [reflexivity|exact I].
  - destruct (step_invariant debug _ _ _ _ _ I H2) as (w1 & R & I1). destruct (IH _ _ _ I1 H4) as (w2 & R2 & I2).
    exists w2. cbn [run]. rewrite R. cbn [bind]. auto.
Qed.
