(** * C51: uses are linked to the visible definition *)
From Coq Require Import String List Bool Arith Lia.
From Verif Require Import AstModel SymbolModel SymbolProofs IdentifyModel IdentifySpec IdentifyProofs.
Import ListNotations.
Open Scope string_scope.
Open Scope list_scope.

(** All vertices of a module are linked to the definition they refer to, if any; each definition
    knows the vertices that refer to it, in the order in which the module is read; other
    vertices are left alone; the visitor ends without any scope. *)
Theorem C51_links (A : Type) (m : list (stmt A)) :
  NoDup (vertices m) ->
  exists s, identify_module m identify_initial = Some s /\
    map fst (links nothing m) = vertices m /\
    (forall v o, In (v, o) (links nothing m) -> definitions_of s v = option_list o) /\
    (forall v, ~ In v (vertices m) -> definitions_of s v = []) /\
    (forall d, uses_of s d = referring d (links nothing m)) /\
    symbol_table s = [].
Proof.
  intros N. unfold identify_module. cbn [symbol_table identify_initial]. change (empty []) with true. cbn [push_scope app].
  set (s0 := with_table [[]] identify_initial).
  assert (C0 : consistent nothing s0).
  { constructor; cbn; try discriminate; auto. }
  assert (F0 : fresh (vertices m) s0) by (split; auto).
  assert (G : Forall stmt_good m) by (apply Forall_forall; intros t _; apply identify_stmt_good).
  destruct (stmts_good m G nothing s0 C0 F0) as (s1 & E & (o & a & b & E1 & E2) & [LD LU]).
  change (push_scope (@nil (scope (nat * string)))) with [@nil (string * (nat * string))]. fold s0. rewrite E.
  change (symbol_table s0) with ([] ++ [@nil (string * (nat * string))]) in E1. apply app_inj_tail in E1 as [<- <-]. cbn in E2. rewrite E2. cbn.
  eexists; split; [reflexivity|]. split; [apply links_vertices|]. cbn.
  assert (NL : NoDup (map fst (links nothing m))) by (rewrite links_vertices; auto).
  split; [|split; [|split; auto]].
  - intros v x I. rewrite LD. apply defs_in_unique; auto.
  - intros v I. rewrite LD. apply defs_in_none. rewrite links_vertices. auto.
Qed.
Print Assumptions C51_links.

(** Every definition that a vertex refers to is a vertex of the module that refers to itself. *)
Theorem C51_targets (A : Type) (m : list (stmt A)) v d :
  In (v, Some d) (links nothing m) -> In (d, Some d) (links nothing m).
Proof.
  assert (H : forall (l : list (stmt A)) n v d, In (v, Some d) (links n l) -> (exists x, n x = Some d) \/ In (d, Some d) (links n l)).
  { assert (HE : forall n (e : expr A) v d, In (v, Some d) (expr_links n e) -> exists x, n x = Some d).
    { intros n e. induction e as [i x|i w|i f args IH|i e sel IHe IHs|i e mm IHe] using expr_induction; cbn; intros v0 d0 I.
      - destruct I as [[= _ I]|[]]. eauto.
      - destruct I.
      - apply in_flat_map in I as (a & I1 & I2). rewrite Forall_forall in IH. eauto.
      - apply in_app_iff in I as [I|I]; eauto.
      - eauto. }
    assert (HL : forall l : list (stmt A), Forall (fun t => forall n v d, In (v, Some d) (stmt_links n t) -> (exists x, n x = Some d) \/ In (d, Some d) (stmt_links n t)) l ->
      forall n v d, In (v, Some d) (links n l) -> (exists x, n x = Some d) \/ In (d, Some d) (links n l)).
    { induction 1 as [|t l Ht _ IH]; intros n v0 d0 I; cbn in *; [destruct I|]. apply in_app_iff in I as [I|I].
      - destruct (Ht n v0 d0 I); auto. right. apply in_app_iff; auto.
      - destruct (IH (after n t) v0 d0 I) as [[x X]|X]; [|right; apply in_app_iff; auto].
        destruct t as [w y e|e|c t f|c t f]; cbn in X; eauto. unfold define in X. destruct (String.eqb x y).
        + injection X as ->. right. cbn. rewrite !in_app_iff. cbn. auto.
        + eauto. }
    intros l. apply HL. apply Forall_forall. intros t _.
    induction t as [w x e|e|c t f IHt IHf|c t f IHt IHf] using stmt_induction; intros n v0 d0 I.
    - cbn in *. apply in_app_iff in I as [I|[[= -> ->]|[]]]; [left; eapply HE; eauto|]. right. apply in_app_iff. cbn. auto.
    - left. eapply HE; eauto.
    - rewrite links_if in *. rewrite !in_app_iff in *. destruct I as [I|[I|I]]; [left; eapply HE; eauto| |].
      + destruct (HL t IHt n v0 d0 I); auto.
      + destruct (HL f IHf n v0 d0 I); auto.
    - rewrite links_while in *. rewrite !in_app_iff in *. destruct I as [I|[I|I]]; [left; eapply HE; eauto| |].
      + destruct (HL t IHt n v0 d0 I); auto.
      + destruct (HL f IHf n v0 d0 I); auto. }
  intros I. destruct (H m nothing v d I) as [[x X]|X]; auto. discriminate.
Qed.
Print Assumptions C51_targets.

(** [a = b; a = f(a, c); if a { c = a; b = c } else { c; a = 1 }; b = a; c] *)
Definition identify_case : list (stmt nat) :=
  [Assign 1 "a" (Name 2 "b");
   Assign 3 "a" (Operation 4 "f" [Name 5 "a"; Name 6 "c"]);
   If (Name 7 "a") [Assign 8 "c" (Name 9 "a"); Assign 10 "b" (Name 11 "c")]
                   [Expr (Name 12 "c"); Assign 13 "a" (Const 14 1)];
   Assign 15 "b" (Name 16 "a"); Expr (Name 17 "c")].

Example C51_case :
  NoDup (vertices identify_case) /\
  links nothing identify_case =
    [(2, None); (1, Some 1); (5, Some 1); (6, None); (3, Some 3); (7, Some 3); (9, Some 3);
     (8, Some 8); (11, Some 8); (10, Some 10); (12, None); (13, Some 13); (16, Some 3);
     (15, Some 15); (17, None)] /\
  option_map (fun s => (uses_of s 3, definitions_of s 16, definitions_of s 17))
    (identify_module identify_case identify_initial) = Some ([7; 9; 16], [3], []).
Proof.
  split; [|split; [reflexivity|]].
  - cbn. repeat constructor; cbn; intuition discriminate.
  - vm_compute. reflexivity.
Qed.

(** A module whose vertices are linked already is rejected: *)
Theorem C51_twice (A : Type) (m : list (stmt A)) s :
  NoDup (vertices m) -> identify_module m identify_initial = Some s ->
  (exists v d, In (v, Some d) (links nothing m)) -> identify_module m s = None.
Proof.
  intros N E (v & d & I). destruct (identify_module m s) as [s'|] eqn:E'; auto. exfalso.
  destruct (C51_links A m N) as (s1 & E1 & LV & LD & _ & _ & T). rewrite E in E1. injection E1 as <-.
  pose proof (LD v (Some d) I) as D. cbn in D. assert (V : In v (vertices m)) by (rewrite <- LV; apply in_map_iff; exists (v, Some d); auto).
  (* a successful visit finds every vertex without definitions *)
  assert (U : forall w x s0 s2, identify_use w x s0 = Some s2 -> definitions_of s0 w = [] /\ forall u, definitions_of s0 u <> [] -> definitions_of s2 u <> []).
  { intros w x s0 s2 Q. unfold identify_use in Q. destruct (definitions_of s0 w) eqn:DW; try discriminate. split; auto.
    destruct (has_value (symbol_table s0) x); [|injection Q as <-; auto].
    destruct (value (symbol_table s0) x) as [[d0 y]|]; try discriminate. unfold add_use in Q. destruct (_ && _ && _); try discriminate.
    injection Q as <-. cbn. intros u Hu. destruct (Nat.eqb u w); auto. destruct (definitions_of s0 u); discriminate. }
  set (P := fun (vs : list nat) (s0 s2 : ident) => (forall w, In w vs -> definitions_of s0 w = []) /\ forall u, definitions_of s0 u <> [] -> definitions_of s2 u <> []).
  assert (PT : forall vs vs' s0 s1 s2, P vs s0 s1 -> P vs' s1 s2 -> P (vs ++ vs') s0 s2).
  { intros vs vs' s0 s1 s2 [H1 H2] [H3 H4]. split; auto. intros w. rewrite in_app_iff. intros [W|W]; auto.
    destruct (definitions_of s0 w) eqn:Q; auto. exfalso. apply (H2 w); [congruence|auto]. }
  assert (PE : forall e s0 s2, identify_expr e s0 = Some s2 -> P (expr_vertices (A:=A) e) s0 s2).
  { induction e as [i x|i w|i f args IH|i e sel IHe IHs|i e mm IHe] using expr_induction; cbn; intros s0 s2 Q.
    - apply U in Q as [Q1 Q2]. split; auto. intros u [<-|[]]; auto.
    - injection Q as <-. split; auto. intros u [].
    - revert s0 Q. induction IH as [|a args Ha _ IH]; cbn; intros s0 Q; [injection Q as <-; split; auto; intros w []|].
      destruct (identify_expr a s0) as [s3|] eqn:Q3; try discriminate. eapply PT; eauto.
    - destruct (identify_expr e s0) as [s3|] eqn:Q3; try discriminate. eapply PT; eauto.
    - eauto. }
  assert (PL : forall l : list (stmt A), Forall (fun t => forall s0 s2, identify_stmt t s0 = Some s2 -> P (stmt_vertices t) s0 s2) l ->
    forall s0 s2, visits identify_stmt l s0 = Some s2 -> P (vertices l) s0 s2).
  { induction 1 as [|t l Ht _ IH]; cbn; intros s0 s2 Q; [injection Q as <-; split; auto; intros w []|].
    destruct (identify_stmt t s0) as [s3|] eqn:Q3; try discriminate. eapply PT; eauto. }
  assert (PB : forall l : list (stmt A), Forall (fun t => forall s0 s2, identify_stmt t s0 = Some s2 -> P (stmt_vertices t) s0 s2) l ->
    forall s0 s2, match visits identify_stmt l (with_table (push_scope (symbol_table s0)) s0) with
      | Some s' => match pop_scope (symbol_table s') with Some t' => Some (with_table t' s') | None => None end
      | None => None end = Some s2 -> P (vertices l) s0 s2).
  { intros l Hl s0 s2 Q. destruct (visits identify_stmt l _) as [s3|] eqn:Q3; try discriminate. apply (PL l Hl) in Q3.
    destruct (pop_scope (symbol_table s3)); try discriminate. injection Q as <-. exact Q3. }
  assert (PS : forall t s0 s2, identify_stmt t s0 = Some s2 -> P (stmt_vertices (A:=A) t) s0 s2).
  { induction t as [w x e|e|c t f IHt IHf|c t f IHt IHf] using stmt_induction; intros s0 s2 Q.
    - cbn [identify_stmt] in Q. destruct (identify_expr e s0) as [s3|] eqn:Q3; try discriminate. cbn. eapply PT; [eapply PE; eauto|].
      unfold identify_definition in Q. destruct (definitions_of s3 w) eqn:DW; try discriminate. cbn zeta in Q.
      destruct (add_value _ x _); try discriminate. injection Q as <-. split; [intros u [<-|[]]; auto|].
      cbn. intros u Hu. destruct (Nat.eqb u w); auto. destruct (definitions_of s3 u); discriminate.
    - apply PE; auto.
    - cbn [identify_stmt] in Q. destruct (identify_expr c s0) as [s3|] eqn:Q3; try discriminate. cbn. eapply PT; [eapply PE; eauto|].
      destruct (match visits identify_stmt t (with_table (push_scope (symbol_table s3)) s3) with
        | Some s' => match pop_scope (symbol_table s') with Some t' => Some (with_table t' s') | None => None end
        | None => None end) as [s4|] eqn:Q4; try discriminate. eapply PT; [apply (PB t IHt _ _ Q4)|apply (PB f IHf _ _ Q)].
    - cbn [identify_stmt] in Q. destruct (identify_expr c s0) as [s3|] eqn:Q3; try discriminate. cbn. eapply PT; [eapply PE; eauto|].
      destruct (match visits identify_stmt t (with_table (push_scope (symbol_table s3)) s3) with
        | Some s' => match pop_scope (symbol_table s') with Some t' => Some (with_table t' s') | None => None end
        | None => None end) as [s4|] eqn:Q4; try discriminate. eapply PT; [apply (PB t IHt _ _ Q4)|apply (PB f IHf _ _ Q)]. }
  unfold identify_module in E'. destruct (empty (symbol_table s)); try discriminate.
  destruct (visits identify_stmt m (with_table (push_scope (symbol_table s)) s)) as [s2|] eqn:Q; try discriminate.
  apply (PL m) in Q; [|apply Forall_forall; intros t _; apply PS]. destruct Q as [Q _]. specialize (Q v V). cbn in Q. congruence.
Qed.
Print Assumptions C51_twice.
