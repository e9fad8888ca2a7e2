(** * Proofs about linking uses to definitions *)
From Coq Require Import String List Bool Arith Lia.
From Verif Require Import AstModel SymbolModel SymbolProofs IdentifyModel IdentifySpec.
Import ListNotations.

Section Proofs.
Context {A : Type}.

(** ** Vertices and links *)
Lemma expr_links_vertices n (e : expr A) : map fst (expr_links n e) = expr_vertices e.
Proof.
  induction e as [i x|i v|i f args IH|i e sel IHe IHs|i e m IHe] using expr_induction; cbn; auto.
  - induction IH as [|a args Ha _ IH]; cbn; auto. rewrite map_app, Ha, IH. auto.
  - rewrite map_app, IHe, IHs. auto.
Qed.

Lemma links_if n c (t f : list (stmt A)) : stmt_links n (If c t f) = expr_links n c ++ links n t ++ links n f.
Proof. reflexivity. Qed.
Lemma links_while n c (t f : list (stmt A)) : stmt_links n (While c t f) = expr_links n c ++ links n t ++ links n f.
Proof. reflexivity. Qed.

Lemma links_vertices_list (m : list (stmt A)) : Forall (fun t => forall n, map fst (stmt_links n t) = stmt_vertices t) m ->
  forall n, map fst (links n m) = vertices m.
Proof. induction 1 as [|t m H _ IH]; intros n; cbn; auto. rewrite map_app, H, IH. auto. Qed.

Lemma stmt_links_vertices (t : stmt A) : forall n, map fst (stmt_links n t) = stmt_vertices t.
Proof.
  induction t as [v x e|e|c t f IHt IHf|c t f IHt IHf] using stmt_induction; intros n.
  - cbn. rewrite map_app, expr_links_vertices. auto.
  - apply expr_links_vertices.
  - rewrite links_if, !map_app, expr_links_vertices, !links_vertices_list; auto.
  - rewrite links_while, !map_app, expr_links_vertices, !links_vertices_list; auto.
Qed.

Lemma links_vertices n (m : list (stmt A)) : map fst (links n m) = vertices m.
Proof. apply links_vertices_list, Forall_forall. intros t _. apply stmt_links_vertices. Qed.

(** ** What the visitor does *)
Definition defs_in (v : nat) (l : list (nat * option nat)) : list nat :=
  flat_map (fun p => if fst p =? v then option_list (snd p) else []) l.

Lemma defs_in_app v l l' : defs_in v (l ++ l') = defs_in v l ++ defs_in v l'.
Proof. apply flat_map_app. Qed.
Lemma referring_app v l l' : referring v (l ++ l') = referring v l ++ referring v l'.
Proof. apply flat_map_app. Qed.

Record consistent (n : scoping) (s : ident) : Prop := {
  co_scope : symbol_table s <> [];
  co_names : forall x d y, value (symbol_table s) x = Some (d, y) -> y = x /\ definitions_of s d = [d];
  co_visible : forall x, option_map fst (value (symbol_table s) x) = n x
}.

(** The links in [l] were made. *)
Definition linked (l : list (nat * option nat)) (s s' : ident) : Prop :=
  (forall v, definitions_of s' v = definitions_of s v ++ defs_in v l) /\
  (forall d, uses_of s' d = uses_of s d ++ referring d l).

Definition fresh (vs : list nat) (s : ident) : Prop := NoDup vs /\ forall v, In v vs -> definitions_of s v = [].

Lemma linked_refl s : linked [] s s.
Proof. split; intros; cbn; rewrite app_nil_r; auto. Qed.
Lemma linked_trans l l' s s1 s2 : linked l s s1 -> linked l' s1 s2 -> linked (l ++ l') s s2.
Proof.
  intros [D U] [D' U']. split; intros v; [rewrite D', D, defs_in_app|rewrite U', U, referring_app]; rewrite app_assoc; auto.
Qed.

Lemma defs_in_none v l : ~ In v (map fst l) -> defs_in v l = [].
Proof.
  induction l as [|[w o] l IH]; intros N; auto. cbn in *. destruct (Nat.eqb_spec w v) as [->|]; [tauto|]. apply IH. tauto.
Qed.

Lemma fresh_app vs vs' l s s' : fresh (vs ++ vs') s -> linked l s s' -> map fst l = vs -> fresh vs' s'.
Proof.
  intros [N F] [D U] E. split.
  - clear -N. induction vs; auto. inversion N; auto.
  - intros v I. rewrite D, F by (apply in_app_iff; auto). apply defs_in_none. rewrite E.
    clear - N I. induction vs as [|w vs IH]; [intros []|]. cbn in N. inversion N as [|? ? N1 N2]; subst. intros [->|J].
    + apply N1. apply in_app_iff; auto.
    + apply (IH N2 J).
Qed.
Lemma fresh_left vs vs' s : fresh (vs ++ vs') s -> fresh vs s.
Proof.
  intros [N F]. split; [|intros v I; apply F, in_app_iff; auto].
  clear F. induction vs as [|v vs IH]; [constructor|]. inversion N as [|? ? N1 N2]; subst. constructor; auto.
  intros J. apply N1, in_app_iff; auto.
Qed.

(** A definition that is in the table keeps its link: only fresh vertices get new ones. *)
Lemma kept l s s' d : linked l s s' -> fresh (map fst l) s -> definitions_of s d = [d] -> definitions_of s' d = [d].
Proof.
  intros [D U] [N F] E. rewrite D, E, defs_in_none; auto. intros I. apply F in I. congruence.
Qed.

Lemma use_step n v x s : consistent n s -> fresh [v] s ->
  exists s', identify_use v x s = Some s' /\ symbol_table s' = symbol_table s /\ linked [(v, n x)] s s'.
Proof.
  intros [C1 C2 C3] [_ F]. unfold identify_use. rewrite F by (left; auto). rewrite has_lookup, <- value_lookup.
  specialize (C3 x). destruct (value (symbol_table s) x) as [[d y]|] eqn:V; cbn in C3; rewrite <- C3.
  - destruct (C2 _ _ _ V) as [-> E].
    assert (NE : v <> d) by (intros ->; rewrite F in E; [discriminate|left; auto]).
    unfold add_use. cbn [definitions_of add_definition]. rewrite (proj2 (Nat.eqb_neq d v)) by auto. rewrite E, Nat.eqb_refl.
    rewrite (proj2 (Nat.eqb_neq v d)) by auto. rewrite String.eqb_refl. cbn. eexists; split; [reflexivity|]. split; auto.
    split; cbn; intros w.
    + rewrite (Nat.eqb_sym v w). destruct (w =? v); rewrite ?app_nil_r; auto.
    + rewrite (Nat.eqb_sym d w). destruct (Nat.eqb_spec w d) as [->|]; cbn; rewrite ?app_nil_r; auto.
      rewrite (proj2 (Nat.eqb_neq v d)) by auto. auto.
  - exists s. split; auto. split; auto. split; intros w; cbn; [destruct (v =? w)|]; rewrite ?app_nil_r; auto.
Qed.

Lemma expr_step (e : expr A) : forall n s, consistent n s -> fresh (expr_vertices e) s ->
  exists s', identify_expr e s = Some s' /\ symbol_table s' = symbol_table s /\ linked (expr_links n e) s s'.
Proof.
  assert (CO : forall n s s' l, consistent n s -> linked l s s' -> fresh (map fst l) s -> symbol_table s' = symbol_table s -> consistent n s').
  { intros n s s' l [C1 C2 C3] L F E. constructor; rewrite ?E; auto. intros x d y V. destruct (C2 x d y V). split; auto. eapply kept; eauto. }
  induction e as [v x|i v|i f args IH|i e sel IHe IHs|i e m IHe] using expr_induction; intros n s C F; cbn.
  - apply use_step; auto.
  - exists s. split; auto. split; auto. apply linked_refl.
  - cbn in F. revert s C F. induction IH as [|a args Ha _ IH]; intros s C F; cbn.
    + exists s. split; auto. split; auto. apply linked_refl.
    + cbn in F. destruct (Ha n s C (fresh_left _ _ _ F)) as (s1 & -> & E1 & L1).
      assert (C' : consistent n s1) by (eapply CO; eauto; rewrite expr_links_vertices; eapply fresh_left; eauto).
      destruct (IH s1 C') as (s2 & E2 & E2' & L2); [eapply fresh_app; eauto; apply expr_links_vertices|].
      exists s2. split; auto. split; [congruence|]. eapply linked_trans; eauto.
  - cbn in F. destruct (IHe n s C (fresh_left _ _ _ F)) as (s1 & -> & E1 & L1).
    assert (C' : consistent n s1) by (eapply CO; eauto; rewrite expr_links_vertices; eapply fresh_left; eauto).
    destruct (IHs n s1 C') as (s2 & E2 & E2' & L2); [eapply fresh_app; eauto; apply expr_links_vertices|].
    exists s2. split; auto. split; [congruence|]. eapply linked_trans; eauto.
  - apply IHe; auto.
Qed.

Lemma consistent_same n s s' l : consistent n s -> linked l s s' -> fresh (map fst l) s -> symbol_table s' = symbol_table s -> consistent n s'.
Proof.
  intros [C1 C2 C3] L F E. constructor; rewrite ?E; auto. intros x d y V. destruct (C2 x d y V). split; auto. eapply kept; eauto.
Qed.

(** The table has the same outer scopes. *)
Definition same_outer (t t' : table (nat * string)) : Prop := exists o a b, t = o ++ [a] /\ t' = o ++ [b].

Lemma same_outer_refl t : t <> [] -> same_outer t t.
Proof. intros N. destruct (exists_last N) as (o & a & ->). exists o, a, a. auto. Qed.
Lemma same_outer_trans t t' t'' : same_outer t t' -> same_outer t' t'' -> same_outer t t''.
Proof.
  intros (o & a & b & -> & ->) (o' & a' & b' & E & ->). apply app_inj_tail in E as [-> ->]. exists o', a, b'. auto.
Qed.

Definition stmt_good (t : stmt A) : Prop := forall n s, consistent n s -> fresh (stmt_vertices t) s ->
  exists s', identify_stmt t s = Some s' /\ same_outer (symbol_table s) (symbol_table s') /\
    consistent (after n t) s' /\ linked (stmt_links n t) s s'.

Lemma stmts_good (m : list (stmt A)) : Forall stmt_good m -> forall n s, consistent n s -> fresh (vertices m) s ->
  exists s', visits identify_stmt m s = Some s' /\ same_outer (symbol_table s) (symbol_table s') /\ linked (links n m) s s'.
Proof.
  induction 1 as [|t m H _ IH]; intros n s C F; cbn.
  - exists s. split; auto. split; [apply same_outer_refl, C|apply linked_refl].
  - cbn in F. destruct (H n s C (fresh_left _ _ _ F)) as (s1 & -> & O1 & C1 & L1).
    destruct (IH (after n t) s1 C1) as (s2 & E2 & O2 & L2); [eapply fresh_app; eauto; apply stmt_links_vertices|].
    exists s2. split; auto. split; [eapply same_outer_trans; eauto|eapply linked_trans; eauto].
Qed.

Lemma value_push (t : table (nat * string)) x : value (push_scope t) x = value t x.
Proof. rewrite !value_lookup. unfold push_scope. rewrite rev_app_distr. auto. Qed.

Lemma branch_good (b : list (stmt A)) : Forall stmt_good b -> forall n s, consistent n s -> fresh (vertices b) s ->
  exists s', match visits identify_stmt b (with_table (push_scope (symbol_table s)) s) with
    | Some s' => match pop_scope (symbol_table s') with Some t' => Some (with_table t' s') | None => None end
    | None => None end = Some s' /\ symbol_table s' = symbol_table s /\ linked (links n b) s s'.
Proof.
  intros G n s C F. set (s0 := with_table (push_scope (symbol_table s)) s).
  assert (C0 : consistent n s0).
  { destruct C as [C1 C2 C3]. constructor; cbn.
    - unfold push_scope. destruct (symbol_table s); discriminate.
    - intros x d y. rewrite value_push. apply C2.
    - intros x. rewrite value_push. apply C3. }
  destruct (stmts_good b G n s0 C0 F) as (s1 & -> & (o & a & b1 & E1 & E2) & L).
  cbn in E1. unfold push_scope in E1. apply app_inj_tail in E1 as [<- <-]. rewrite E2.
  assert (P : pop_scope (symbol_table s ++ [b1]) = Some (symbol_table s)).
  { unfold pop_scope. destruct (symbol_table s ++ [b1]) eqn:E; [destruct (symbol_table s); discriminate|]. rewrite <- E, removelast_last. auto. }
  rewrite P. eexists; split; [reflexivity|]. split; auto.
Qed.

Lemma identify_stmt_good (t : stmt A) : stmt_good t.
Proof.
  assert (IF : forall c t f, Forall stmt_good t -> Forall stmt_good f -> forall n s, consistent n s ->
    fresh (expr_vertices c ++ vertices t ++ vertices f) s ->
    exists s', identify_stmt (If c t f) s = Some s' /\ symbol_table s' = symbol_table s /\ consistent n s' /\ linked (stmt_links n (If c t f)) s s').
  { intros c t1 f1 Gt Gf n s C F. destruct (expr_step c n s C (fresh_left _ _ _ F)) as (s1 & E1 & T1 & L1).
    assert (C1 : consistent n s1) by (eapply consistent_same; eauto; rewrite expr_links_vertices; eapply fresh_left; eauto).
    assert (F1 : fresh (vertices t1 ++ vertices f1) s1) by (eapply fresh_app; eauto; apply expr_links_vertices).
    destruct (branch_good t1 Gt n s1 C1 (fresh_left _ _ _ F1)) as (s2 & E2 & T2 & L2).
    assert (C2 : consistent n s2) by (eapply consistent_same; eauto; rewrite links_vertices; eapply fresh_left; eauto).
    assert (F2 : fresh (vertices f1) s2) by (eapply fresh_app; eauto; apply links_vertices).
    destruct (branch_good f1 Gf n s2 C2 F2) as (s3 & E3 & T3 & L3).
    exists s3. split; [cbn [identify_stmt]; rewrite E1, E2; exact E3|]. split; [congruence|]. split.
    - eapply consistent_same; eauto. rewrite links_vertices. auto.
    - rewrite links_if. eapply linked_trans; eauto. eapply linked_trans; eauto. }
  induction t as [v x e|e|c t f IHt IHf|c t f IHt IHf] using stmt_induction; intros n s C F.
  - cbn in F. cbn. destruct (expr_step e n s C (fresh_left _ _ _ F)) as (s1 & -> & T1 & L1).
    assert (C1 : consistent n s1) by (eapply consistent_same; eauto; rewrite expr_links_vertices; eapply fresh_left; eauto).
    assert (F1 : fresh [v] s1) by (eapply fresh_app; eauto; apply expr_links_vertices).
    unfold identify_definition. destruct F1 as [N1 F1]. rewrite F1 by (left; auto). cbn zeta.
    destruct (exists_last (co_scope _ _ C1)) as (o & a & E). cbn [symbol_table add_definition]. rewrite E. unfold add_value. rewrite on_back_spec. cbn [option_map].
    eexists; split; [reflexivity|].
    assert (LV : linked [(v, Some v)] s1 (with_table (o ++ [scope_set_value a x (v, x)]) (add_definition v v s1))).
    { split; cbn; intros w.
      - rewrite (Nat.eqb_sym v w). destruct (w =? v); rewrite ?app_nil_r; auto.
      - destruct (v =? w); cbn; rewrite ?app_nil_r; auto. }
    split; [|split].
    + exists o, a, (scope_set_value a x (v, x)). split; auto. congruence.
    + destruct C1 as [K1 K2 K3].
      assert (V : forall y, value (o ++ [scope_set_value a x (v, x)]) y = if String.eqb x y then Some (v, x) else value (symbol_table s1) y).
      { intros y. rewrite E, !value_lookup, !rev_app_distr. cbn. rewrite find_set. destruct (String.eqb x y); auto. }
      constructor; cbn [symbol_table with_table].
      * destruct o; discriminate.
      * intros y d z. rewrite V. destruct (String.eqb_spec x y) as [->|NE].
        -- intros [= <- <-]. split; auto. destruct LV as [LV _]. rewrite LV, F1 by (left; auto). cbn. rewrite Nat.eqb_refl. auto.
        -- intros VV. destruct (K2 _ _ _ VV) as [-> KD]. split; auto. eapply kept; eauto. split; auto.
      * intros y. rewrite V. unfold after, define. rewrite String.eqb_sym. destruct (String.eqb y x); auto.
    + eapply linked_trans; eauto.
  - cbn in F. cbn. destruct (expr_step e n s C F) as (s1 & -> & T1 & L1). exists s1. split; auto. split; [rewrite T1; apply same_outer_refl, C|].
    split; auto. eapply consistent_same; eauto. rewrite expr_links_vertices. auto.
  - destruct (IF c t f IHt IHf n s C F) as (s' & E & T & C' & L). exists s'. split; auto. split; [rewrite T; apply same_outer_refl, C|]. auto.
  - destruct (IF c t f IHt IHf n s C F) as (s' & E & T & C' & L). exists s'. split; auto. split; [rewrite T; apply same_outer_refl, C|]. auto.
Qed.

Lemma defs_in_unique l v o : NoDup (map fst l) -> In (v, o) l -> defs_in v l = option_list o.
Proof.
  induction l as [|[w p] l IH]; intros N; [intros []|]. cbn in N. inversion N as [|? ? N1 N2]; subst. intros [[= -> ->]|I]; cbn.
  - rewrite Nat.eqb_refl. fold (defs_in v l). rewrite defs_in_none, app_nil_r; auto.
  - destruct (Nat.eqb_spec w v) as [->|]; [|apply IH; auto]. exfalso. apply N1. apply in_map_iff. exists (v, o). auto.
Qed.
End Proofs.
