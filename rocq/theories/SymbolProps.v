(** * C45: symbol tables *)
From Coq Require Import String List Bool Arith Lia.
From Verif Require Import SymbolModel SymbolSpec SymbolProofs.
Import ListNotations.

Lemma reach {T} (cs : list (call T)) t : performs [] cs = Some t ->
  rperforms [] (rev (rev cs)) = Some (rev t).
Proof. intros H. rewrite rev_involutive. generalize (performs_rev cs []). rewrite H. cbn. auto. Qed.

Section Statements.
Context {T : Type}.

(** After any history of calls, [has_value] and [value] give the value that was last added
    under that name to the innermost open scope that holds it: calls in scopes that were closed
    since do not count, neither do values that were erased, cleared or overwritten.  [value]
    succeeds exactly for the names that [has_value]. *)
Theorem C45_visible_value (cs : list (call T)) t name :
  performs [] cs = Some t ->
  value t name = visible name (rev cs) 0 false /\
  (has_value t name = true <-> visible name (rev cs) 0 false <> None).
Proof.
  intros H. rewrite value_lookup, has_lookup, (visible_lookup (rev cs) (rev t)) by (apply reach; auto).
  cbn [rest skipn]. split; auto. destruct (lookup (rev t) name); split; auto; congruence.
Qed.

(** Removing a scope restores the table as it was when that scope was added, whatever happened
    in between, provided the scopes opened in between are closed. *)
Theorem C45_pop_restores (t t' : table T) cs :
  balanced cs -> performs t (PushScope :: cs ++ [PopScope]) = Some t' -> t' = t.
Proof.
  intros Hb H. generalize (performs_rev (PushScope :: cs ++ [PopScope]) t). rewrite H.
  cbn [option_map rperforms rperform]. rewrite rperforms_app. intros E. symmetry in E.
  destruct (rperforms ([] :: rev t) cs) as [ss|] eqn:E1; [|discriminate].
  destruct (closes_keeps cs 0 [] (rev t) ss [] eq_refl Hb E1) as [x' ->].
  cbn in E. inversion E as [E2]. rewrite <- (rev_involutive t), E2, rev_involutive. auto.
Qed.

(** A balanced history leaves the values visible outside of the current scope alone. *)
Theorem C45_outer_scopes_kept (t t' : table T) s cs :
  balanced cs -> performs (t ++ [s]) cs = Some t' -> exists s', t' = t ++ [s'].
Proof.
  intros Hb H. generalize (performs_rev cs (t ++ [s])). rewrite H, rev_app_distr.
  cbn [option_map rev app]. intros E. symmetry in E.
  destruct (closes_keeps cs 0 [] (rev t) (rev t') s eq_refl Hb E) as [x' E2].
  exists x'. rewrite <- (rev_involutive t'), E2. cbn. rewrite rev_involutive. auto.
Qed.

(** Every call succeeds exactly when its documented precondition holds; the scope level counts
    the open scopes. *)
Theorem C45_calls (cs : list (call T)) t :
  performs [] cs = Some t ->
  scope_level t = open_scopes (rev cs) /\
  (perform t PushScope <> None) /\
  (perform t PopScope = None <-> scope_level t = 0) /\
  (perform t ClearScope = None <-> scope_level t = 0) /\
  (forall name v, perform t (AddValue name v) = None <-> scope_level t = 0) /\
  (forall name, perform t (EraseValue name) = None <->
     scope_level_of t name <> Some (scope_level t)).
Proof.
  intros H. split.
  { unfold scope_level. rewrite <- (rev_length t). apply open_scopes_length, reach; auto. }
  assert (P : forall c, perform t c = None <-> rperform (rev t) c = None).
  { intros c. rewrite <- perform_rev. destruct (perform t c); cbn; split; congruence. }
  assert (L : scope_level t = 0 <-> rev t = []).
  { unfold scope_level. rewrite <- (rev_length t). destruct (rev t); cbn; split; congruence. }
  split; [cbn; congruence|]. rewrite L.
  split; [rewrite P; destruct (rev t); cbn; split; congruence|].
  split; [rewrite P; destruct (rev t); cbn; split; congruence|].
  split; [intros name v; rewrite P, L; destruct (rev t); cbn; split; auto; discriminate|].
  intros name. clear P L H. destruct t as [|s t _] using rev_ind.
  - cbn. split; [discriminate|auto].
  - cbn [perform]. unfold erase_value. rewrite on_back_spec. unfold scope_erase_value, scope_level_of, scope_level.
    assert (Hn : has_value (t ++ [s]) name = true \/ scope_has_value s name = false).
    { destruct (scope_has_value s name) eqn:E; auto. left. unfold has_value. apply existsb_exists.
      exists s. split; auto. apply in_or_app; cbn; auto. }
    rewrite app_length. cbn [length]. replace (length t + 1) with (S (length t)) by lia.
    cbn [level_loop]. rewrite nth_error_app2, Nat.sub_diag by lia. cbn [nth_error].
    destruct (level_loop_spec (t ++ [s]) name (length t)) as [Hle _]; [rewrite app_length; lia|].
    destruct (scope_has_value s name); cbn [option_map].
    + destruct Hn as [->|]; [|discriminate]. split; [discriminate|congruence].
    + split; auto. intros _. destruct (has_value (t ++ [s]) name); [|discriminate].
      intros C. injection C as C. lia.
Qed.

(** The scope level of a name is the level of the innermost scope that holds it, and the value
    of the name is the value in the scope at that level. *)
Theorem C45_scope_level_of (t : table T) name :
  (has_value t name = false -> scope_level_of t name = None) /\
  (has_value t name = true -> exists level s,
     scope_level_of t name = Some level /\ scope_at t level = Some s /\
     scope_has_value s name = true /\ value t name = scope_value s name /\
     (forall level' s', level < level' -> scope_at t level' = Some s' ->
        scope_has_value s' name = false)).
Proof.
  unfold scope_level_of. split; intros E; rewrite E; auto.
  destruct (level_loop_spec t name (length t) (Nat.le_refl _)) as (A & B & C).
  set (level := level_loop t name (length t)) in *.
  assert (Pos : 0 < level).
  { destruct level; [|lia]. exfalso. unfold has_value in E. apply existsb_exists in E as (s & H1 & H2).
    apply In_nth_error in H1 as [i Hi]. assert (i < length t) by (apply nth_error_Some; congruence).
    rewrite (B (S i) s) in H2; [discriminate|lia|]. replace (S i - 1) with i by lia. auto. }
  destruct (C Pos) as (s & H1 & H2).
  assert (Above : forall level' s', level < level' -> scope_at t level' = Some s' ->
    scope_has_value s' name = false).
  { intros l s' Hl Hs. unfold scope_at in Hs. destruct (l <=? length t) eqn:E1; [|discriminate].
    apply Nat.leb_le in E1. destruct (0 <? l); [|discriminate]. apply (B l s'); auto; lia. }
  exists level, s. split; auto.
  assert (S1 : scope_at t level = Some s).
  { unfold scope_at. rewrite (proj2 (Nat.leb_le _ _) A), (proj2 (Nat.ltb_lt _ _) Pos). auto. }
  repeat (split; auto).
  rewrite value_lookup. apply nth_error_split in H1 as (t1 & t2 & -> & Hl).
  rewrite rev_app_distr. cbn [rev]. rewrite <- app_assoc.
  assert (N : forall x, In x (rev t2) -> scope_has_value x name = false).
  { intros x Hx. apply in_rev in Hx. apply In_nth_error in Hx as [i Hi].
    assert (i < length t2) by (apply nth_error_Some; congruence).
    apply (B (level + S i) x).
    - rewrite app_length. cbn. lia.
    - rewrite nth_error_app2 by lia. replace (level + S i - 1 - length t1) with (S i) by lia. auto. }
  clear - H2 N. induction (rev t2) as [|x l IH]; cbn.
  - unfold scope_value. rewrite has_find in H2. destruct (scope_find s name); auto; discriminate.
  - specialize (N x) as Nx. rewrite has_find in Nx. destruct (scope_find x name).
    + specialize (Nx (or_introl eq_refl)). discriminate.
    + apply IH. intros y Hy. apply N; cbn; auto.
Qed.

(** The size of the table is the number of pairs of an open scope and a name held by it. *)
Theorem C45_size (cs : list (call T)) t :
  performs [] cs = Some t ->
  (exists names : list (nat * string), NoDup names /\ length names = size t /\
     forall level name, In (level, name) names <->
       exists s, scope_at t level = Some s /\ scope_has_value s name = true) /\
  (empty t = true <-> forall name, has_value t name = false).
Proof.
  intros H. assert (D : Forall (fun s => NoDup (map fst s)) t).
  { apply reach in H. rewrite rev_involutive in H. apply distinct_performs in H; [|constructor].
    unfold distinct in H. rewrite Forall_forall in *. intros s Hs. apply H. apply in_rev in Hs; auto. }
  clear H cs.
  assert (Sz : forall u : table T, size u = list_sum (map (@length _) u)).
  { intros u. unfold size. rewrite (size_sum u 0). auto. }
  split.
  - set (numbered := fix numbered (k : nat) (u : table T) : list (nat * string) :=
      match u with [] => [] | s :: u' => map (fun b => (k, fst b)) s ++ numbered (S k) u' end).
    assert (I : forall u k l n, In (l, n) (numbered k u) <->
      exists s, k <= l /\ nth_error u (l - k) = Some s /\ scope_has_value s n = true).
    { induction u as [|s u IH]; intros k l n; cbn [numbered].
      - split; [intros []|]. intros (s & _ & E & _). destruct (l - k); discriminate.
      - rewrite in_app_iff, IH. split.
        + intros [Hi|(x & H1 & H2 & H3)].
          * apply in_map_iff in Hi as (b & Eb & Hb). inversion Eb; subst. exists s.
            rewrite Nat.sub_diag. cbn. repeat split; auto. rewrite has_find.
            destruct (scope_find s (fst b)) eqn:E; auto. exfalso.
            apply (proj2 (find_in s (fst b))); auto. apply in_map; auto.
          * exists x. split; [lia|]. replace (l - k) with (S (l - S k)) by lia. cbn; auto.
        + intros (x & H1 & H2 & H3). destruct (l - k) as [|j] eqn:Ej; cbn in H2.
          * left. inversion H2; subst. apply in_map_iff.
            assert (Hn : In n (map fst x)).
            { apply find_in. rewrite has_find in H3. destruct (scope_find x n); congruence. }
            apply in_map_iff in Hn as (b & Eb & Hb). exists b. split; auto. rewrite Eb. f_equal. lia.
          * right. exists x. repeat split; auto; [lia|]. replace (l - S k) with j by lia. auto. }
    exists (numbered 1 t). split; [|split].
    + generalize 1. induction D as [|s u Hs Hu IH]; intros k; cbn [numbered]; [constructor|].
      assert (N1 : NoDup (map (fun b => (k, fst b)) s)).
      { rewrite <- (map_map fst (fun n => (k, n))). clear - Hs.
        induction Hs as [|n ns H1 H2 IH]; cbn; constructor; auto.
        rewrite in_map_iff. intros (y & E & Hy). inversion E; subst; auto. }
      assert (N2 : forall p, In p (map (fun b => (k, fst b)) s) -> ~ In p (numbered (S k) u)).
      { intros [l n] H1 H2. apply in_map_iff in H1 as (b & Eb & _). inversion Eb; subst.
        apply I in H2 as (x & H2 & _). lia. }
      clear - N1 N2 IH. specialize (IH (S k)). induction (map (fun b : string * T => (k, fst b)) s) as [|p l IHl]; cbn; auto.
      inversion N1; subst. constructor.
      * rewrite in_app_iff. intros [Hp|Hp]; auto. apply (N2 p); cbn; auto.
      * apply IHl; auto. intros q Hq. apply N2; cbn; auto.
    + rewrite Sz. clear. generalize 1. induction t as [|s u IH]; intros k; cbn; auto.
      rewrite app_length, map_length, IH. auto.
    + intros l n. rewrite I. unfold scope_at.
      split; intros (s & H1 & H2); exists s.
      * destruct H2 as [H2 H3]. assert (l - 1 < length t) by (apply nth_error_Some; congruence).
        rewrite (proj2 (Nat.leb_le l _)), (proj2 (Nat.ltb_lt 0 l)) by lia. auto.
      * destruct (l <=? length t); [|discriminate]. destruct (0 <? l) eqn:E; [|discriminate].
        apply Nat.ltb_lt in E. cbn in H1. auto.
  - unfold empty. rewrite Nat.eqb_eq, Sz. unfold has_value. clear D Sz. split.
    + intros E n. induction t as [|s u IH]; cbn in *; auto.
      unfold list_sum in IH. destruct s; [|discriminate]. cbn in *. apply IH. auto.
    + intros E. induction t as [|s u IH]; cbn in *; auto.
      destruct s as [|[n v] s]; cbn in *.
      * apply IH; auto.
      * specialize (E n). unfold scope_has_value in E. cbn in E. rewrite String.eqb_refl in E. discriminate.
Qed.
End Statements.
Print Assumptions C45_visible_value.
Print Assumptions C45_pop_restores.
Print Assumptions C45_outer_scopes_kept.
Print Assumptions C45_calls.
Print Assumptions C45_scope_level_of.
Print Assumptions C45_size.

(** A history with shadowing, overwriting, erasing and closed scopes. *)
Local Open Scope string_scope.
Definition story : list (call nat) :=
  [PushScope; AddValue "a" 1; AddValue "b" 2; PushScope; AddValue "a" 3; AddValue "a" 4;
   PushScope; AddValue "b" 5; PopScope; AddValue "c" 6; EraseValue "c"].
Example C45_case : exists t, performs [] story = Some t /\
  value t "a" = Some 4 /\ value t "b" = Some 2 /\ value t "c" = None /\
  scope_level t = 2 /\ scope_level_of t "b" = Some 1 /\ scope_level_of t "a" = Some 2 /\
  size t = 3 /\ empty t = false /\ perform t (EraseValue "b") = None.
Proof. eexists. repeat split; reflexivity. Qed.
Example C45_case_restores : exists t t', performs [] [PushScope; AddValue "a" 1] = Some t /\
  balanced [AddValue "a" 7; PushScope; AddValue "b" 2; PopScope] /\
  performs t (PushScope :: ([AddValue "a" 7; PushScope; AddValue "b" 2; PopScope] ++ [PopScope])%list)
    = Some t' /\ t' = t /\ performs t [AddValue "b" 1] <> None.
Proof. do 2 eexists. repeat split; try reflexivity. discriminate. Qed.
