(** Metatheory of the task language. *)
From Coq Require Import ZArith List Bool Lia.
From Verif Require Import LangModel.
Import ListNotations.
Open Scope Z_scope.

Section Lang.
Context {V : Type}.
Implicit Types m : mem V.

Lemma same_spec b b' i i' : same b b' i i' = true <-> b = b' /\ i = i'.
Proof.
  unfold same; rewrite andb_true_iff, Nat.eqb_eq, Z.eqb_eq; tauto.
Qed.

Lemma same_refl b i : same b b i i = true.
Proof. apply same_spec; auto. Qed.

Lemma same_false b b' i i' : same b b' i i' = false <-> b <> b' \/ i <> i'.
Proof.
  unfold same; rewrite andb_false_iff, Nat.eqb_neq, Z.eqb_neq; tauto.
Qed.

Lemma mem_eq_refl m : mem_eq m m.
Proof. intros [b i|b i]; reflexivity. Qed.

Lemma mem_eq_sym m m' : mem_eq m m' -> mem_eq m' m.
Proof. intros H l; specialize (H l); destruct l; simpl in *; auto. Qed.

Lemma mem_eq_trans m1 m2 m3 : mem_eq m1 m2 -> mem_eq m2 m3 -> mem_eq m1 m3.
Proof.
  intros H1 H2 l; specialize (H1 l); specialize (H2 l); destruct l; simpl in *; congruence.
Qed.

Lemma same_at_refl m l : same_at m m l.
Proof. destruct l; reflexivity. Qed.

Lemma same_at_sym m m' l : same_at m m' l -> same_at m' m l.
Proof. destruct l; simpl; auto. Qed.

Lemma same_at_trans m1 m2 m3 l : same_at m1 m2 l -> same_at m2 m3 l -> same_at m1 m3 l.
Proof. destruct l; simpl; congruence. Qed.

Lemma set_v_other m b i v l : l <> LV b i -> same_at (set_v m b i v) m l.
Proof.
  destruct l as [b' i'|b' i']; intros Hne; simpl; auto.
  destruct (same b b' i i') eqn:E; auto.
  apply same_spec in E as [-> ->]; congruence.
Qed.

Lemma set_m_other m b i x l : l <> LM b i -> same_at (set_m m b i x) m l.
Proof.
  destruct l as [b' i'|b' i']; intros Hne; simpl; auto.
  destruct (same b b' i i') eqn:E; auto.
  apply same_spec in E as [-> ->]; congruence.
Qed.

Lemma set_v_mono m m' b i v l :
  same_at m m' l -> same_at (set_v m b i v) (set_v m' b i v) l.
Proof.
  destruct l as [b' i'|b' i']; simpl; auto.
  destruct (same b b' i i'); auto.
Qed.

Lemma set_m_mono m m' b i x l :
  same_at m m' l -> same_at (set_m m b i x) (set_m m' b i x) l.
Proof.
  destruct l as [b' i'|b' i']; simpl; auto.
  destruct (same b b' i i'); auto.
Qed.

(** ** bind *)

Lemma run_bind {A B} (p : prog V A) (f : A -> prog V B) m :
  run (bind p f) m =
  match run p m with Some (a, m') => run (f a) m' | None => None end.
Proof.
  revert m; induction p as [a|b i k IH|b i v k IH|b i k IH|b i x k IH|]; intros m; simpl; auto.
  - destruct (mval m b i); auto.
  - destruct (mval m b i); auto.
  - destruct (mmsk m b i); auto.
  - destruct (mmsk m b i); auto.
Qed.

Lemma run_seq {A B} (p : prog V A) (q : prog V B) m :
  run (seq p q) m =
  match run p m with Some (_, m') => run q m' | None => None end.
Proof. unfold seq; apply run_bind. Qed.

(** ** Footprints *)

Definition disjoint (X Y : loc -> bool) : Prop := forall l, X l = true -> Y l = false.

Definition union (X Y : loc -> bool) (l : loc) : bool := X l || Y l.

Lemma fits_weaken {A} (R W R' W' : loc -> bool) (p : prog V A) :
  (forall l, W l = true -> W' l = true) ->
  (forall l, R l = true -> R' l || W' l = true) ->
  fits R W p -> fits R' W' p.
Proof.
  intros HW HR.
  assert (HRW : forall l, R l || W l = true -> R' l || W' l = true).
  { intros l H; apply orb_true_iff in H as [H|H]; [auto|].
    rewrite (HW _ H); apply orb_true_r. }
  induction p as [a|b i k IH|b i v k IH|b i k IH|b i x k IH|]; simpl; auto;
    intros [H1 H2]; split; auto.
Qed.

Lemma fits_bind {A B} R W (p : prog V A) (f : A -> prog V B) :
  fits R W p -> (forall a, fits R W (f a)) -> fits R W (bind p f).
Proof.
  intros Hp Hf.
  induction p as [a|b i k IH|b i v k IH|b i k IH|b i x k IH|]; simpl in *; auto.
  - destruct Hp; split; auto.
  - destruct Hp; split; auto.
  - destruct Hp; split; auto.
  - destruct Hp; split; auto.
Qed.

Lemma fits_seq {A B} R W (p : prog V A) (q : prog V B) :
  fits R W p -> fits R W q -> fits R W (seq p q).
Proof. intros; apply fits_bind; auto. Qed.

Lemma fits_fold_n {A} R W n i (body : Z -> A -> prog V A) acc :
  (forall j a, i <= j < i + Z.of_nat n -> fits R W (body j a)) ->
  fits R W (fold_n n i body acc).
Proof.
  revert i acc; induction n as [|n IH]; intros i acc H; simpl; auto.
  apply fits_bind.
  - apply H; lia.
  - intros a; apply IH; intros j a' Hj; apply H; lia.
Qed.

Lemma fits_fold_range {A} R W b e (body : Z -> A -> prog V A) acc :
  (forall j a, b <= j < e -> fits R W (body j a)) ->
  fits R W (fold_range b e body acc).
Proof.
  intros H; apply fits_fold_n; intros j a Hj; apply H.
  destruct (Z_le_gt_dec b e); lia.
Qed.

Lemma fits_for_range R W b e (body : Z -> prog V unit) :
  (forall j, b <= j < e -> fits R W (body j)) ->
  fits R W (for_range b e body).
Proof. intros H; apply fits_fold_range; auto. Qed.

Lemma fits_seq_all {A} R W (ps : list (prog V A)) :
  Forall (fits R W) ps -> fits R W (seq_all ps).
Proof.
  induction 1 as [|p ps Hp _ IH]; simpl; auto.
  apply fits_bind; auto; intros a. apply fits_bind; auto; intros l; exact I.
Qed.

(** A program changes nothing outside its write footprint. *)
Lemma run_frame {A} R W (p : prog V A) m a m' :
  fits R W p -> run p m = Some (a, m') ->
  forall l, W l = false -> same_at m' m l.
Proof.
  revert m; induction p as [a0|b i k IH|b i v k IH|b i k IH|b i x k IH|];
    simpl; intros m Hfit Hrun l Hl.
  - inversion Hrun; subst; apply same_at_refl.
  - destruct Hfit as [_ Hk]. destruct (mval m b i) as [v|]; [|discriminate].
    eapply IH; eauto.
  - destruct Hfit as [Hw Hk]. destruct (mval m b i); [|discriminate].
    eapply same_at_trans; [eapply IH; eauto|].
    apply set_v_other; congruence.
  - destruct Hfit as [_ Hk]. destruct (mmsk m b i) as [v|]; [|discriminate].
    eapply IH; eauto.
  - destruct Hfit as [Hw Hk]. destruct (mmsk m b i); [|discriminate].
    eapply same_at_trans; [eapply IH; eauto|].
    apply set_m_other; congruence.
  - discriminate.
Qed.

(** The behaviour of a program only depends on the contents of its footprint. *)
Lemma run_local {A} R W (p : prog V A) m1 m2 a m1' :
  fits R W p ->
  (forall l, R l || W l = true -> same_at m1 m2 l) ->
  run p m1 = Some (a, m1') ->
  exists m2', run p m2 = Some (a, m2') /\
    forall l, R l || W l = true -> same_at m1' m2' l.
Proof.
  revert m1 m2; induction p as [a0|b i k IH|b i v k IH|b i k IH|b i x k IH|];
    simpl; intros m1 m2 Hfit Hagree Hrun.
  - inversion Hrun; subst; eauto.
  - destruct Hfit as [Hl Hk]. pose proof (Hagree _ Hl) as Hs; simpl in Hs.
    rewrite <- Hs. destruct (mval m1 b i) as [v|]; [|discriminate].
    eapply IH; eauto.
  - destruct Hfit as [Hw Hk].
    assert (Hl : R (LV b i) || W (LV b i) = true) by (rewrite Hw; apply orb_true_r).
    pose proof (Hagree _ Hl) as Hs; simpl in Hs.
    rewrite <- Hs. destruct (mval m1 b i); [|discriminate].
    eapply IH; [exact Hk| |exact Hrun].
    intros l Hl'; apply set_v_mono; auto.
  - destruct Hfit as [Hl Hk]. pose proof (Hagree _ Hl) as Hs; simpl in Hs.
    rewrite <- Hs. destruct (mmsk m1 b i) as [v|]; [|discriminate].
    eapply IH; eauto.
  - destruct Hfit as [Hw Hk].
    assert (Hl : R (LM b i) || W (LM b i) = true) by (rewrite Hw; apply orb_true_r).
    pose proof (Hagree _ Hl) as Hs; simpl in Hs.
    rewrite <- Hs. destruct (mmsk m1 b i); [|discriminate].
    eapply IH; [exact Hk| |exact Hrun].
    intros l Hl'; apply set_m_mono; auto.
  - discriminate.
Qed.

Definition all_locs : loc -> bool := fun _ => true.

Lemma fits_all {A} (p : prog V A) : fits all_locs all_locs p.
Proof. induction p; simpl; auto. Qed.

Lemma run_mem_eq {A} (p : prog V A) m1 m2 a m1' :
  mem_eq m1 m2 -> run p m1 = Some (a, m1') ->
  exists m2', run p m2 = Some (a, m2') /\ mem_eq m1' m2'.
Proof.
  intros Heq Hrun.
  destruct (run_local all_locs all_locs p m1 m2 a m1' (fits_all p)) as (m2' & H1 & H2);
    auto.
  exists m2'; split; auto. intros l; apply H2; reflexivity.
Qed.

(** Cells never appear or disappear. *)
Definition dom_eq m m' : Prop :=
  (forall b i, mval m b i = None <-> mval m' b i = None) /\
  (forall b i, mmsk m b i = None <-> mmsk m' b i = None).

Lemma dom_eq_refl m : dom_eq m m.
Proof. split; tauto. Qed.

Lemma dom_eq_trans m1 m2 m3 : dom_eq m1 m2 -> dom_eq m2 m3 -> dom_eq m1 m3.
Proof.
  intros [H1 H2] [H3 H4]; split; intros b i.
  - rewrite H1; apply H3.
  - rewrite H2; apply H4.
Qed.

Lemma dom_eq_sym m1 m2 : dom_eq m1 m2 -> dom_eq m2 m1.
Proof. intros [H1 H2]; split; intros b i; symmetry; auto. Qed.

Lemma set_v_dom m b i v : mval m b i <> None -> dom_eq m (set_v m b i v).
Proof.
  intros H; split; intros b' i'; simpl; [|tauto].
  destruct (same b b' i i') eqn:E; [|tauto].
  apply same_spec in E as [-> ->]; split; congruence.
Qed.

Lemma set_m_dom m b i x : mmsk m b i <> None -> dom_eq m (set_m m b i x).
Proof.
  intros H; split; intros b' i'; simpl; [tauto|].
  destruct (same b b' i i') eqn:E; [|tauto].
  apply same_spec in E as [-> ->]; split; congruence.
Qed.

Lemma run_dom {A} (p : prog V A) m a m' : run p m = Some (a, m') -> dom_eq m m'.
Proof.
  revert m; induction p as [a0|b i k IH|b i v k IH|b i k IH|b i x k IH|];
    simpl; intros m Hrun.
  - inversion Hrun; subst; apply dom_eq_refl.
  - destruct (mval m b i); [|discriminate]; eauto.
  - destruct (mval m b i) eqn:E; [|discriminate].
    eapply dom_eq_trans; [apply set_v_dom; rewrite E; discriminate|eauto].
  - destruct (mmsk m b i); [|discriminate]; eauto.
  - destruct (mmsk m b i) eqn:E; [|discriminate].
    eapply dom_eq_trans; [apply set_m_dom; rewrite E; discriminate|eauto].
  - discriminate.
Qed.

(** ** Weakest preconditions *)

Definition wp {A} (p : prog V A) m (Q : A -> mem V -> Prop) : Prop :=
  exists a m', run p m = Some (a, m') /\ Q a m'.

Lemma wp_ret {A} (a : A) m (Q : A -> mem V -> Prop) : Q a m -> wp (Ret a) m Q.
Proof. intros; exists a, m; auto. Qed.

Lemma wp_RdV {A} b i (k : V -> prog V A) m v (Q : A -> mem V -> Prop) :
  mval m b i = Some v -> wp (k v) m Q -> wp (RdV b i k) m Q.
Proof. intros H (a & m' & H1 & H2); exists a, m'; simpl; rewrite H; auto. Qed.

Lemma wp_RdM {A} b i (k : bool -> prog V A) m x (Q : A -> mem V -> Prop) :
  mmsk m b i = Some x -> wp (k x) m Q -> wp (RdM b i k) m Q.
Proof. intros H (a & m' & H1 & H2); exists a, m'; simpl; rewrite H; auto. Qed.

Lemma wp_WrV {A} b i v (k : prog V A) m (Q : A -> mem V -> Prop) :
  mval m b i <> None -> wp k (set_v m b i v) Q -> wp (WrV b i v k) m Q.
Proof.
  intros H (a & m' & H1 & H2); exists a, m'; simpl; destruct (mval m b i); auto; congruence.
Qed.

Lemma wp_WrM {A} b i x (k : prog V A) m (Q : A -> mem V -> Prop) :
  mmsk m b i <> None -> wp k (set_m m b i x) Q -> wp (WrM b i x k) m Q.
Proof.
  intros H (a & m' & H1 & H2); exists a, m'; simpl; destruct (mmsk m b i); auto; congruence.
Qed.

Lemma wp_bind {A B} (p : prog V A) (f : A -> prog V B) m (Q : B -> mem V -> Prop) :
  wp p m (fun a m' => wp (f a) m' Q) -> wp (bind p f) m Q.
Proof.
  intros (a & m' & H1 & b & m'' & H2 & H3). exists b, m''. rewrite run_bind, H1; auto.
Qed.

Lemma wp_seq {A B} (p : prog V A) (q : prog V B) m (Q : B -> mem V -> Prop) :
  wp p m (fun _ m' => wp q m' Q) -> wp (seq p q) m Q.
Proof. apply wp_bind. Qed.

Lemma wp_mono {A} (p : prog V A) m (Q Q' : A -> mem V -> Prop) :
  (forall a m', Q a m' -> Q' a m') -> wp p m Q -> wp p m Q'.
Proof. intros H (a & m' & H1 & H2); exists a, m'; auto. Qed.

Lemma wp_fold_n {A} n i (body : Z -> A -> prog V A) acc m (I : Z -> A -> mem V -> Prop)
    (Q : A -> mem V -> Prop) :
  I i acc m ->
  (forall j a m', i <= j < i + Z.of_nat n -> I j a m' ->
      wp (body j a) m' (fun a' m'' => I (j + 1) a' m'')) ->
  (forall a m', I (i + Z.of_nat n) a m' -> Q a m') ->
  wp (fold_n n i body acc) m Q.
Proof.
  revert i acc m; induction n as [|n IH]; intros i acc m Hi Hbody Hq; simpl.
  - apply wp_ret, Hq. replace (i + Z.of_nat 0) with i by lia; auto.
  - apply wp_bind. eapply wp_mono; [|apply Hbody; [lia|exact Hi]].
    intros a m' Ha. apply IH; auto.
    + intros j a' m'' Hj; apply Hbody; lia.
    + intros a' m''. replace (i + 1 + Z.of_nat n) with (i + Z.of_nat (S n)) by lia. auto.
Qed.

Lemma wp_fold_range {A} b e (body : Z -> A -> prog V A) acc m
    (I : Z -> A -> mem V -> Prop)
    (Q : A -> mem V -> Prop) :
  b <= e ->
  I b acc m ->
  (forall j a m', b <= j < e -> I j a m' ->
      wp (body j a) m' (fun a' m'' => I (j + 1) a' m'')) ->
  (forall a m', I e a m' -> Q a m') ->
  wp (fold_range b e body acc) m Q.
Proof.
  intros Hbe Hi Hbody Hq; unfold fold_range.
  eapply wp_fold_n with (I := I); auto.
  - intros j a m' Hj; apply Hbody; lia.
  - intros a m'. replace (b + Z.of_nat (Z.to_nat (e - b))) with e by lia. auto.
Qed.

Lemma fold_range_empty {A} b e (body : Z -> A -> prog V A) acc :
  e <= b -> fold_range b e body acc = Ret acc.
Proof. intros H; unfold fold_range. replace (Z.to_nat (e - b)) with O by lia; auto. Qed.

Lemma for_range_empty b e (body : Z -> prog V unit) :
  e <= b -> for_range b e body = Ret tt.
Proof. apply fold_range_empty. Qed.

Lemma run_fold_n_app {A} n1 n2 i (body : Z -> A -> prog V A) acc m :
  run (fold_n (n1 + n2) i body acc) m =
  run (bind (fold_n n1 i body acc) (fun a => fold_n n2 (i + Z.of_nat n1) body a)) m.
Proof.
  revert i acc m; induction n1 as [|n1 IH]; intros i acc m.
  - simpl. replace (i + 0) with i by lia; auto.
  - cbn [fold_n Nat.add bind]. rewrite !run_bind.
    destruct (run (body i acc) m) as [[a m']|]; auto.
    rewrite IH, run_bind.
    destruct (run (fold_n n1 (i + 1) body a) m') as [[a' m'']|]; auto.
    replace (i + 1 + Z.of_nat n1) with (i + Z.of_nat (S n1)) by lia; auto.
Qed.

Lemma run_fold_range_split {A} b c e (body : Z -> A -> prog V A) acc m :
  b <= c -> c <= e ->
  run (fold_range b e body acc) m =
  run (bind (fold_range b c body acc) (fun a => fold_range c e body a)) m.
Proof.
  intros H1 H2; unfold fold_range.
  replace (Z.to_nat (e - b)) with (Z.to_nat (c - b) + Z.to_nat (e - c))%nat by lia.
  rewrite run_fold_n_app.
  replace (b + Z.of_nat (Z.to_nat (c - b))) with c by lia; auto.
Qed.

Lemma run_for_range_split b c e (body : Z -> prog V unit) m :
  b <= c -> c <= e ->
  run (for_range b e body) m =
  run (seq (for_range b c body) (for_range c e body)) m.
Proof.
  intros H1 H2; unfold for_range. rewrite (run_fold_range_split b c e) by auto.
  unfold seq; rewrite !run_bind.
  destruct (run (fold_range b c _ tt) m) as [[[] m']|]; auto.
Qed.

End Lang.
