(** * Proofs about the inputs and outputs of a module *)
From Coq Require Import String List Bool Arith Lia.
From Verif Require Import AstModel SymbolModel SymbolProofs IoModel IoSpec.
Import ListNotations.

Section Proofs.
Context {A : Type}.

Definition io_event (e : event) (s : io) : option io :=
  match e with Use x => Some (io_use x s) | Define i x => io_define i x s end.

Lemma visits_app {X S} (f : X -> S -> option S) l l' s :
  visits f (l ++ l') s = match visits f l s with Some s' => visits f l' s' | None => None end.
Proof. revert s. induction l as [|x l IH]; intros s; cbn; auto. destruct (f x s); auto. Qed.

Lemma visits_flat {X Y S} (f : X -> S -> option S) (g : Y -> S -> option S) (h : X -> list Y) l :
  Forall (fun x => forall s, f x s = visits g (h x) s) l ->
  forall s, visits f l s = visits g (flat_map h l) s.
Proof.
  induction 1 as [|x l H _ IH]; intros s; cbn; auto. rewrite visits_app, H.
  destruct (visits g (h x) s); auto.
Qed.

Lemma io_expr_events (e : expr A) : forall s, io_expr e s = visits io_event (expr_events e) s.
Proof.
  induction e as [i x|i v|i f args IH|i e s1 IHe IHs|i e m IHe] using expr_induction; intros s; cbn; auto.
  - apply visits_flat; auto.
  - rewrite visits_app, IHe. destruct (visits io_event (expr_events e) s); auto.
Qed.

Lemma io_stmt_events (t : stmt A) : forall s, io_stmt t s = visits io_event (stmt_events t) s.
Proof.
  induction t as [i x e|e|c t f IHt IHf|c t f IHt IHf] using stmt_induction; intros s; cbn.
  - rewrite visits_app, io_expr_events. destruct (visits io_event (expr_events e) s) as [s'|]; auto.
    cbn. destruct (io_define i x s'); auto.
  - apply io_expr_events.
  - rewrite !visits_app, io_expr_events. destruct (visits io_event (expr_events c) s) as [s'|]; auto.
    rewrite visits_app. rewrite (visits_flat io_stmt io_event stmt_events t IHt).
    destruct (visits io_event (flat_map stmt_events t) s'); auto. apply (visits_flat io_stmt io_event stmt_events f IHf).
  - rewrite !visits_app, io_expr_events. destruct (visits io_event (expr_events c) s) as [s'|]; auto.
    rewrite visits_app. rewrite (visits_flat io_stmt io_event stmt_events t IHt).
    destruct (visits io_event (flat_map stmt_events t) s'); auto. apply (visits_flat io_stmt io_event stmt_events f IHf).
Qed.

Lemma io_stmts_events (m : list (stmt A)) s : visits io_stmt m s = visits io_event (events m) s.
Proof. apply visits_flat, Forall_forall. intros t _. apply io_stmt_events. Qed.

Lemma erase_some {X} (l : list X) : forall i, i < length l ->
  exists l', erase_at l i = Some l' /\ S (length l') = length l /\ incl l' l.
Proof.
  induction l as [|x l IH]; intros [|i] H; cbn in *; try lia.
  - exists l. repeat split; auto. intros y; cbn; auto.
  - destruct (IH i) as (l' & -> & L & I); [lia|]. exists (x :: l'). cbn. repeat split; auto.
    intros y [->|Y]; [left; auto|right; apply I; auto].
Qed.

Definition name_eq_dec := string_dec.

(** What holds for all modules: the indices are in range, so that the visitor succeeds, there
    are as many outputs as defined names, and all outputs are definitions. *)
Record counted (es : list event) (s : io) : Prop := {
  c_index : forall x i, scope_find (output_id_by_name s) x = Some i -> i < length (outputs s);
  c_length : length (output_id_by_name s) = length (outputs s);
  c_names : forall x, scope_find (output_id_by_name s) x <> None <-> In x (map snd (definitions es));
  c_nodup : NoDup (map fst (output_id_by_name s));
  c_defs : incl (outputs s) (map fst (definitions es));
  c_inputs : inputs s = firsts (used_names es)
}.

Lemma definitions_app es es' : definitions (es ++ es') = definitions es ++ definitions es'.
Proof. induction es as [|[x|i x] es IH]; cbn; auto. f_equal; auto. Qed.
Lemma used_app es es' : used_names (es ++ es') = used_names es ++ used_names es'.
Proof. induction es as [|[x|i x] es IH]; cbn; auto. f_equal; auto. Qed.

Lemma firsts_in l : forall x, In x (firsts l) <-> In x l.
Proof.
  induction l as [|y l IH]; intros x; cbn; [tauto|]. rewrite filter_In, IH, negb_true_iff, String.eqb_neq.
  destruct (string_dec y x); [tauto|]. intuition congruence.
Qed.

Lemma filter_all {X} (p : X -> bool) l : (forall x, In x l -> p x = true) -> filter p l = l.
Proof.
  induction l as [|x l IH]; intros H; cbn; auto. rewrite H by (left; auto). f_equal. apply IH. intros y Y. apply H; right; auto.
Qed.

Lemma firsts_snoc l x : firsts (l ++ [x]) = if existsb (String.eqb x) (firsts l) then firsts l else firsts l ++ [x].
Proof.
  induction l as [|y l IH]; auto. cbn [app firsts existsb]. rewrite IH.
  destruct (String.eqb_spec x y) as [->|N]; cbn [orb].
  - destruct (existsb (String.eqb y) (firsts l)); auto.
    rewrite filter_app. cbn. rewrite String.eqb_refl. cbn. rewrite app_nil_r. auto.
  - assert (E : existsb (String.eqb x) (filter (fun z => negb (String.eqb z y)) (firsts l)) = existsb (String.eqb x) (firsts l)).
    { clear IH. induction (firsts l) as [|z r IH]; auto. cbn [filter existsb]. destruct (String.eqb_spec z y) as [->|M]; cbn [negb].
      - rewrite IH. rewrite (proj2 (String.eqb_neq x y) N). auto.
      - cbn [existsb]. rewrite IH. auto. }
    rewrite E. destruct (existsb (String.eqb x) (firsts l)); auto.
    rewrite filter_app. cbn. rewrite (proj2 (String.eqb_neq x y) N). cbn. auto.
Qed.

Lemma firsts_nodup l : NoDup (firsts l).
Proof.
  induction l as [|x l IH]; cbn; constructor.
  - rewrite filter_In, String.eqb_refl. cbn. intros [_ X]; discriminate.
  - apply NoDup_filter; auto.
Qed.

Lemma counted_step es e s : counted es s -> exists s', io_event e s = Some s' /\ counted (es ++ [e]) s'.
Proof.
  intros [C1 C2 C3 C4 C5 C6]. destruct e as [x|i x]; cbn [io_event].
  - exists (io_use x s). split; auto.
    assert (U : inputs (io_use x s) = firsts (used_names (es ++ [Use x])) /\ outputs (io_use x s) = outputs s /\
      output_id_by_name (io_use x s) = output_id_by_name s).
    { rewrite used_app. cbn [used_names]. rewrite firsts_snoc, <- C6. unfold io_use.
      destruct (existsb (String.eqb x) (inputs s)); auto. }
    destruct U as (U1 & U2 & U3).
    assert (D : definitions (es ++ [Use x]) = definitions es) by (rewrite definitions_app; cbn; rewrite app_nil_r; auto).
    constructor; rewrite ?U2, ?U3, ?D; auto.
  - unfold io_define.
    assert (E : exists o, match scope_find (output_id_by_name s) x with Some k => erase_at (outputs s) k | None => Some (outputs s) end = Some o /\
      incl o (outputs s) /\ length o = length (outputs s) - (if scope_find (output_id_by_name s) x then 1 else 0)).
    { destruct (scope_find (output_id_by_name s) x) as [k|] eqn:F.
      - destruct (erase_some (outputs s) k) as (o & E & L & I); [eauto|]. exists o. repeat split; auto. lia.
      - exists (outputs s). repeat split; auto; [intros y; auto|lia]. }
    destruct E as (o & -> & I & L). eexists; split; [reflexivity|].
    assert (LS : length (scope_set_value (output_id_by_name s) x (length o)) =
      length (output_id_by_name s) + (if scope_find (output_id_by_name s) x then 0 else 1)).
    { clear. induction (output_id_by_name s) as [|[y v] l IH]; auto. cbn. destruct (String.eqb y x); cbn; [lia|]. rewrite IH. lia. }
    constructor; cbn [outputs output_id_by_name inputs].
    + intros y k. rewrite find_set, app_length. cbn. destruct (String.eqb x y) eqn:Y.
      * intros [= <-]. lia.
      * intros F. apply C1 in F. destruct (scope_find (output_id_by_name s) x) as [k'|] eqn:F'; [apply C1 in F'|]; lia.
    + rewrite LS, app_length, L. cbn. destruct (scope_find (output_id_by_name s) x) as [k'|] eqn:F'; [apply C1 in F'|]; lia.
    + intros y. rewrite find_set, definitions_app, map_app, in_app_iff. cbn. rewrite <- C3.
      destruct (String.eqb_spec x y) as [->|N]; [split; [auto|discriminate]|]. intuition congruence.
    + apply NoDup_set; auto.
    + rewrite definitions_app, map_app. intros y. rewrite !in_app_iff. intros [Y|Y]; auto.
    + rewrite used_app. cbn. rewrite app_nil_r. auto.
Qed.

Lemma counted_visits es : forall es0 s, counted es0 s -> exists s', visits io_event es s = Some s' /\ counted (es0 ++ es) s'.
Proof.
  induction es as [|e es IH]; intros es0 s C; cbn [visits].
  - exists s. rewrite app_nil_r. auto.
  - destruct (counted_step es0 e s C) as (s1 & -> & C1). destruct (IH _ _ C1) as (s' & E & C').
    exists s'. split; auto. rewrite <- app_assoc in C'. auto.
Qed.

Lemma counted_empty : counted [] io_empty.
Proof.
  constructor; cbn; auto; try discriminate; try tauto; try (constructor); intros x; tauto.
Qed.

Lemma io_module_counted (m : list (stmt A)) :
  exists s, io_module m = Some s /\ visits io_event (events m) io_empty = Some s /\ counted (events m) s.
Proof.
  unfold io_module. rewrite io_stmts_events. destruct (counted_visits (events m) [] io_empty counted_empty) as (s & E & C).
  rewrite E. exists s. rewrite (c_length _ _ C), Nat.eqb_refl. auto.
Qed.

(** The outputs when at most one name is redefined. *)
Lemma lasts_names ds x : In x (map snd (lasts ds)) <-> In x (map snd ds).
Proof.
  induction ds as [|[i y] ds IH]; cbn; [tauto|].
  destruct (existsb (fun d => String.eqb (snd d) y) ds) eqn:E.
  - rewrite IH. split; auto. intros [->|H]; auto. apply existsb_exists in E as (d & D & Y). apply String.eqb_eq in Y. subst x.
    apply in_map; auto.
  - cbn. rewrite IH. tauto.
Qed.

Lemma lasts_nodup ds : NoDup (map snd (lasts ds)).
Proof.
  induction ds as [|[i y] ds IH]; cbn; [constructor|].
  destruct (existsb (fun d => String.eqb (snd d) y) ds) eqn:E; auto. cbn. constructor; auto.
  rewrite lasts_names. intros H. apply in_map_iff in H as (d & <- & D).
  assert (X : existsb (fun d0 => String.eqb (snd d0) (snd d)) ds = true) by (apply existsb_exists; exists d; split; auto; apply String.eqb_refl).
  congruence.
Qed.

Lemma lasts_snoc ds i x : lasts (ds ++ [(i, x)]) = filter (fun d => negb (String.eqb (snd d) x)) (lasts ds) ++ [(i, x)].
Proof.
  induction ds as [|[j y] ds IH]; auto. cbn [app lasts]. rewrite existsb_app. cbn [existsb snd]. rewrite orb_false_r.
  destruct (existsb (fun d => String.eqb (snd d) y) ds) eqn:E; cbn [orb]; auto.
  rewrite String.eqb_sym. cbn [filter snd].
  destruct (String.eqb y x); cbn [negb]; auto. rewrite IH. auto.
Qed.

Lemma filter_not_in (l : list (nat * string)) x : ~ In x (map snd l) -> filter (fun d => negb (String.eqb (snd d) x)) l = l.
Proof.
  intros N. apply filter_all. intros [i y] H. cbn. rewrite negb_true_iff, String.eqb_neq. intros ->.
  apply N. change x with (snd (i, x)). apply in_map; auto.
Qed.

Lemma erase_filter (l : list (nat * string)) x : NoDup (map snd l) -> forall k i, nth_error l k = Some (i, x) ->
  erase_at (map fst l) k = Some (map fst (filter (fun d => negb (String.eqb (snd d) x)) l)).
Proof.
  intros N. induction l as [|[j y] l IH]; intros [|k] i H; cbn in H; try discriminate; inversion N as [|? ? N1 N2]; subst.
  - injection H as -> ->. cbn. rewrite String.eqb_refl. cbn. rewrite filter_not_in; auto.
  - cbn. rewrite (IH N2 k i H). destruct (String.eqb_spec y x) as [->|M]; cbn; auto.
    exfalso. apply N1. apply nth_error_In in H. change x with (snd (i, x)). apply in_map; auto.
Qed.

Lemma count_app l l' (x : string) : count_occ string_dec (l ++ l') x = count_occ string_dec l x + count_occ string_dec l' x.
Proof. apply count_occ_app. Qed.

Record right (x : string) (es : list event) (s : io) : Prop := {
  r_counted : counted es s;
  r_outputs : outputs s = map fst (lasts (definitions es));
  r_index : forall k, scope_find (output_id_by_name s) x = Some k -> exists i, nth_error (lasts (definitions es)) k = Some (i, x)
}.

Lemma right_visits x es : (forall y, y <> x -> count_occ string_dec (map snd (definitions es)) y <= 1) ->
  exists s, visits io_event es io_empty = Some s /\ right x es s.
Proof.
  induction es as [|e es IH] using rev_ind; intros H.
  - exists io_empty. split; auto. constructor; [apply counted_empty|reflexivity|discriminate].
  - destruct IH as (s & E & [C O I]).
    { intros y N. specialize (H y N). rewrite definitions_app, map_app, count_app in H. lia. }
    destruct (counted_step es e s C) as (s' & E' & C').
    exists s'. rewrite visits_app, E. cbn [visits]. rewrite E'. split; auto.
    destruct e as [y|i y].
    + cbn in E'. injection E' as <-.
      assert (U : outputs (io_use y s) = outputs s /\ output_id_by_name (io_use y s) = output_id_by_name s).
      { unfold io_use. destruct (existsb (String.eqb y) (inputs s)); auto. }
      destruct U as [U1 U2].
      assert (D : definitions (es ++ [Use y]) = definitions es) by (rewrite definitions_app; cbn; rewrite app_nil_r; auto).
      constructor; rewrite ?D, ?U1, ?U2; auto.
    + assert (D : definitions (es ++ [Define i y]) = definitions es ++ [(i, y)]) by (rewrite definitions_app; auto).
      cbn [io_event] in E'. unfold io_define in E'. rewrite D in H.
      destruct (string_dec y x) as [->|N].
      * assert (F : match scope_find (output_id_by_name s) x with Some k => erase_at (outputs s) k | None => Some (outputs s) end =
          Some (map fst (filter (fun d => negb (String.eqb (snd d) x)) (lasts (definitions es))))).
        { destruct (scope_find (output_id_by_name s) x) as [k|] eqn:F.
          - destruct (I k eq_refl) as [j J]. rewrite O. eapply erase_filter; eauto using lasts_nodup.
          - rewrite filter_not_in; [rewrite O; auto|]. rewrite lasts_names, <- (c_names _ _ C), F. congruence. }
        rewrite F in E'. injection E' as <-. constructor; auto; cbn [outputs output_id_by_name]; rewrite D, lasts_snoc.
        -- rewrite map_app. auto.
        -- intros k. rewrite find_set, String.eqb_refl. intros [= <-]. exists i.
           rewrite map_length, nth_error_app2, Nat.sub_diag by auto. auto.
      * assert (NI : ~ In y (map snd (definitions es))).
        { intros X. specialize (H y N). rewrite map_app, count_app in H. cbn [map snd count_occ] in H. destruct (string_dec y y); [|congruence].
          apply (count_occ_In string_dec) in X. lia. }
        assert (F : scope_find (output_id_by_name s) y = None).
        { destruct (scope_find (output_id_by_name s) y) eqn:F; auto. exfalso. apply NI. apply (c_names _ _ C). congruence. }
        rewrite F in E'. injection E' as <-. constructor; auto; cbn [outputs output_id_by_name]; rewrite D, lasts_snoc, filter_not_in by (rewrite lasts_names; auto).
        -- rewrite map_app, O. auto.
        -- intros k. rewrite find_set. rewrite (proj2 (String.eqb_neq y x)) by auto.
           intros K. destruct (I k K) as [j J]. exists j. rewrite nth_error_app1; auto. apply nth_error_Some. congruence.
Qed.
End Proofs.
