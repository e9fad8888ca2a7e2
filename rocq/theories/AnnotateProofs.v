(** * Proofs about annotation and validation *)
From Coq Require Import String List Bool Arith NArith Lia.
From Coq Require Import Permutation.
From Verif Require Import AstModel SymbolModel SymbolProofs FlagModel AnnotateModel AnnotateSpec.
Import ListNotations.

Section Proofs.
Context {A : Type}.
Variable operations : string -> option aop.
Variable const_type : A -> expression_type.
Local Notation typ := (type_in operations const_type (@rev _)).
Local Notation etypes := (expr_types operations const_type (@rev _)).

Lemma add_type_one (t : table expression_type) x v : scope_level t = 1 ->
  exists t', add_value t x v = Some t' /\ scope_level t' = 1 /\
    forall y, value t' y = if String.eqb y x then Some v else value t y.
Proof.
  intros H. destruct t as [|sc [|? ?]]; try discriminate. exists [scope_set_value sc x v]. split; [reflexivity|]. split; auto.
  intros y. rewrite !value_lookup. cbn. rewrite find_set, String.eqb_sym. destruct (String.eqb y x); auto.
Qed.

(** The vertices of [l] are annotated, those of [ops] know their operations. *)
Definition annotated (l : list (nat * option expression_type)) (s s' : annot) : Prop :=
  (forall v, ~ In v (map fst l) -> types_of s' v = types_of s v /\ operation_of s' v = operation_of s v) /\
  (forall v o, In (v, o) l -> exists t, o = Some t /\ types_of s' v = [t]).

(** The vertices of an expression know their operations. *)
Fixpoint operated (e : expr A) (s : annot) : Prop :=
  match e with
  | Operation v f args => operation_of s v = operations f /\ fold_right (fun a P => operated a s /\ P) True args
  | _ => True
  end.

Notation untouched := unannotated (only parsing).

Lemma expr_types_nodes n (e : expr A) : simple e -> map fst (etypes n e) = expr_nodes e.
Proof.
  induction e as [i x|i v|i f args IH|i e sel IHe IHs|i e m IHe] using expr_induction; cbn [simple]; intros S; try tauto; auto.
  cbn [expr_types expr_nodes]. rewrite map_app. f_equal. induction IH as [|a args Ha _ IH]; cbn; auto.
  destruct S as [S1 S2]. rewrite map_app, Ha, IH; auto.
Qed.

Lemma untouched_left vs vs' s : untouched (vs ++ vs') s -> untouched vs s.
Proof.
  intros [N F]. split; [|intros v I; apply F, in_app_iff; auto].
  clear F. induction vs as [|v vs IH]; [constructor|]. inversion N as [|? ? N1 N2]; subst. constructor; auto.
  intros J. apply N1, in_app_iff; auto.
Qed.
Lemma nodup_disjoint {X} (l l' : list X) x : NoDup (l ++ l') -> In x l -> ~ In x l'.
Proof.
  induction l as [|y l IH]; intros N; [intros []|]. cbn in N. inversion N as [|? ? N1 N2]; subst. intros [->|I] J.
  - apply N1, in_app_iff; auto.
  - apply (IH N2 I J).
Qed.
Lemma untouched_right vs vs' l s s' : untouched (vs ++ vs') s -> annotated l s s' -> map fst l = vs -> untouched vs' s'.
Proof.
  intros [N F] [H1 H2] E. split.
  - clear -N. induction vs; auto. inversion N; auto.
  - intros v I. destruct (H1 v) as [-> ->].
    + rewrite E. intros J. apply (nodup_disjoint _ _ _ N J I).
    + apply F, in_app_iff; auto.
Qed.

Lemma annotated_trans l l' s s1 s2 : NoDup (map fst (l ++ l')) -> annotated l s s1 -> annotated l' s1 s2 -> annotated (l ++ l') s s2.
Proof.
  intros N [H1 H2] [H3 H4]. rewrite map_app in N. split.
  - intros v I. rewrite map_app, in_app_iff in I. destruct (H1 v) as [<- <-]; [tauto|]. apply H3. tauto.
  - intros v o I. apply in_app_iff in I as [I|I]; auto. destruct (H2 v o I) as (t & -> & T). exists t. split; auto.
    destruct (H3 v) as [-> _]; auto. apply (nodup_disjoint _ _ _ N). apply in_map_iff. exists (v, Some t). auto.
Qed.

(** [operation_of] of the vertices of an expression is kept by annotating others. *)
Lemma operated_kept e l s s' : simple e -> (forall v, In v (expr_nodes e) -> ~ In v (map fst l)) -> annotated l s s' -> operated e s -> operated e s'.
Proof.
  intros S D [H _]. induction e as [i x|i v|i f args IH|i e sel IHe IHs|i e m IHe] using expr_induction; cbn in *; auto.
  intros [O1 O2]. split.
  - rewrite <- O1. apply H. apply D. apply in_app_iff. cbn. auto.
  - assert (DA : forall v, In v (flat_map expr_nodes args) -> ~ In v (map fst l)) by (intros v I; apply D, in_app_iff; auto). clear D O1.
    induction IH as [|a args Ha _ IH]; cbn in *; auto. destruct S as [S1 S2], O2 as [O2 O3]. split.
    + apply Ha; auto. intros v I. apply DA, in_app_iff; auto.
    + apply IH; auto. intros v I. apply DA, in_app_iff; auto.
Qed.

Lemma pop_types_rev ts : forall st s, types_stack s = rev ts ++ st ->
  pop_types (length ts) s = Some (rev ts, set_types_stack st s).
Proof.
  induction ts as [|t ts IH] using rev_ind; intros st s E.
  - cbn in *. subst st. destruct s; auto.
  - rewrite app_length, Nat.add_comm. cbn. rewrite rev_app_distr in E. cbn in E. rewrite E.
    rewrite (IH st); [|auto]. rewrite rev_app_distr. auto.
Qed.

Definition expr_good (e : expr A) : Prop := forall n s, simple e -> untouched (expr_nodes e) s ->
  (forall x, name_type x s = n x) ->
  match typ n e with
  | Some t =>
      exists s', annotate_expr operations const_type e s = Some s' /\ type_symbols s' = type_symbols s /\
        types_stack s' = t :: types_stack s /\ annotated (etypes n e) s s' /\ operated e s'
  | None => annotate_expr operations const_type e s = None
  end.

Lemma name_type_same x s s' : type_symbols s' = type_symbols s -> name_type x s' = name_type x s.
Proof. unfold name_type. intros ->. auto. Qed.

Lemma nodup_left {X} (l l' : list X) : NoDup (l ++ l') -> NoDup l.
Proof.
  induction l as [|x l IH]; intros N; [constructor|]. inversion N as [|? ? N1 N2]; subst. constructor; auto.
  intros J. apply N1, in_app_iff; auto.
Qed.

Definition all_simple (args : list (expr A)) : Prop := fold_right (fun a P => simple a /\ P) True args.

Lemma args_nodes n args : all_simple args -> map fst (flat_map (etypes n) args) = flat_map expr_nodes args.
Proof.
  induction args as [|a args IH]; cbn; auto. intros [S1 S2]. rewrite map_app, IH, expr_types_nodes; auto.
Qed.

Lemma args_good args : Forall expr_good args -> forall n s, all_simple args -> untouched (flat_map expr_nodes args) s ->
  (forall x, name_type x s = n x) ->
  match all_some (map (typ n) args) with
  | Some ts =>
      exists s', visits (annotate_expr operations const_type) args s = Some s' /\ type_symbols s' = type_symbols s /\
        types_stack s' = rev ts ++ types_stack s /\ length ts = length args /\ annotated (flat_map (etypes n) args) s s' /\
        fold_right (fun a P => operated a s' /\ P) True args
  | None => visits (annotate_expr operations const_type) args s = None
  end.
Proof.
  induction 1 as [|a args Ha _ IH]; intros n s S U NT; cbn.
  - exists s. repeat split; auto; cbn in *; tauto.
  - cbn in U. destruct S as [S1 S2]. specialize (Ha n s S1 (untouched_left _ _ _ U) NT).
    destruct (typ n a) as [t|] eqn:T; [|rewrite Ha; auto].
    destruct Ha as (s1 & -> & Y1 & K1 & A1 & O1).
    assert (U1 : untouched (flat_map expr_nodes args) s1) by (eapply untouched_right; eauto; apply expr_types_nodes; auto).
    assert (NT1 : forall x, name_type x s1 = n x) by (intros x; rewrite (name_type_same x s); auto).
    specialize (IH n s1 S2 U1 NT1). destruct (all_some (map (typ n) args)) as [ts|]; auto.
    destruct IH as (s2 & E2 & Y2 & K2 & L2 & A2 & O2). exists s2. split; auto. split; [congruence|]. split; [|split; [|split; [|split]]].
    + rewrite K2, K1. cbn. rewrite <- app_assoc. auto.
    + cbn. auto.
    + eapply annotated_trans; eauto. rewrite map_app, expr_types_nodes by auto. rewrite args_nodes; auto. apply U.
    + eapply operated_kept; [auto| |exact A2|exact O1]. intros v I J. rewrite args_nodes in J by auto. apply (nodup_disjoint _ _ _ (proj1 U) I J).
    + auto.
Qed.

Lemma all_annotated e : expr_good e.
Proof.
  induction e as [i x|i v|i f args IH|i e sel IHe IHs|i e m IHe] using expr_induction; intros n s S U NT; cbn [simple] in S; try tauto.
  - cbn. unfold annotate_leaf. destruct (proj2 U i) as [-> UO]; [left; auto|]. rewrite NT. eexists; split; [reflexivity|]. repeat split; auto.
    + cbn. destruct (Nat.eqb_spec v i) as [->|]; auto. exfalso. cbn in H. tauto.
    + cbn. intros v o [[= <- <-]|[]]. exists (n x). rewrite Nat.eqb_refl. auto.
  - cbn. unfold annotate_leaf. destruct (proj2 U i) as [-> UO]; [left; auto|]. eexists; split; [reflexivity|]. repeat split; auto.
    + cbn. destruct (Nat.eqb_spec v0 i) as [->|]; auto. exfalso. cbn in H. tauto.
    + cbn. intros w o [[= <- <-]|[]]. exists (const_type v). rewrite Nat.eqb_refl. auto.
  - cbn [expr_nodes] in U. cbn [annotate_expr].
    assert (IV : In i (flat_map expr_nodes args ++ [i])) by (apply in_app_iff; cbn; auto).
    destruct (proj2 U i IV) as [UI UO]. rewrite UI.
    pose proof (args_good args IH n s S (untouched_left _ _ _ U) NT) as G. cbn [type_in].
    destruct (all_some (map (typ n) args)) as [ts|] eqn:TS; [|rewrite G; auto].
    destruct G as (s1 & E1 & Y1 & K1 & L1 & A1 & O1). rewrite E1, <- L1.
    rewrite (pop_types_rev ts (types_stack s) s1 K1). set (s2 := set_types_stack (types_stack s) s1).
    assert (NI : ~ In i (map fst (flat_map (etypes n) args))).
    { rewrite args_nodes by auto. intros J. apply (nodup_disjoint _ _ _ (proj1 U) J). cbn. auto. }
    assert (OI : operation_of s2 i = None) by (cbn; rewrite (proj2 (proj1 A1 i NI)); auto).
    assert (TI : types_of s2 i = []) by (cbn; rewrite (proj1 (proj1 A1 i NI)); auto).
    assert (FIN : forall t s3, types_of s3 = types_of s2 -> type_symbols s3 = type_symbols s2 -> types_stack s3 = types_stack s2 ->
      (forall w, w <> i -> operation_of s3 w = operation_of s2 w) -> operation_of s3 i = operations f ->
      typ n (Operation i f args) = Some t ->
      type_symbols (set_types i [t] (push_type t s3)) = type_symbols s /\
      types_stack (set_types i [t] (push_type t s3)) = t :: types_stack s /\
      annotated (etypes n (Operation i f args)) s (set_types i [t] (push_type t s3)) /\
      operated (Operation i f args) (set_types i [t] (push_type t s3))).
    { intros t s3 Q1 Q2 Q3 Q4 Q5 T. split; [cbn; rewrite Q2; exact Y1|]. split; [cbn; rewrite Q3; auto|]. 
      assert (AL : annotated [(i, Some t)] s1 (set_types i [t] (push_type t s3))).
      { split.
        - intros w W. cbn in W. cbn. rewrite Q1. rewrite (proj2 (Nat.eqb_neq w i)) by (intros ->; tauto). split; auto. rewrite Q4; auto.
        - intros w o [[= <- <-]|[]]. exists t. cbn. rewrite Nat.eqb_refl. auto. }
      split.
      - cbn [expr_types]. rewrite T. eapply annotated_trans; eauto. rewrite map_app, args_nodes by auto. apply U.
      - cbn [operated]. split; [exact Q5|].
        clear - O1 AL S U. destruct U as [U _].
        assert (D : forall v, In v (flat_map expr_nodes args) -> v <> i).
        { intros v I ->. apply (nodup_disjoint _ _ _ U I). cbn. auto. }
        clear U. induction args as [|a args IHa]; cbn in *; auto. destruct S as [S1 S2], O1 as [O1 O2]. split.
        + eapply operated_kept; eauto. intros v I [J|[]]. cbn in J. apply (D v); [apply in_app_iff; auto|auto].
        + apply IHa; auto. intros v I. apply D. apply in_app_iff; auto. }
    destruct (operations f) as [o|] eqn:F.
    + rewrite OI. cbn zeta. change (types_of (set_operation i o s2) i) with (types_of s2 i). rewrite TI.
      destruct (if length ts =? length (op_parameters (signature o)) then result_type o (rev ts) else Some default_expression_type) as [t|] eqn:T; auto.
      eexists; split; [reflexivity|]. apply FIN; auto.
      * intros w W. cbn. rewrite (proj2 (Nat.eqb_neq w i)); auto.
      * cbn. rewrite Nat.eqb_refl. auto.
      * cbn [type_in]. rewrite TS, F, <- L1. exact T.
    + eexists; split; [reflexivity|]. apply FIN; auto. cbn [type_in]. rewrite TS, F. auto.
Qed.

Local Notation mtypes := (module_types operations const_type (@rev _)).
Local Notation after := (types_after operations const_type (@rev _)).

Definition stmt_operated (t : stmt A) (s : annot) : Prop :=
  match t with Assign _ _ e | Expr e => operated e s | _ => True end.

Lemma module_types_nodes (m : list (stmt A)) : Forall simple_stmt m -> forall n r, after n m = Some r -> map fst (mtypes n m) = nodes m.
Proof.
  induction 1 as [|t m St _ IH]; intros n r E; auto. destruct t as [v x e|e|c t f|c t f]; cbn in *; try discriminate.
  - destruct (typ n e) as [t|]; try discriminate. rewrite map_app. cbn. rewrite expr_types_nodes, (IH _ _ E), <- app_assoc by auto. auto.
  - destruct (typ n e) as [t|]; try discriminate. destruct (after n m) as [[n' ts]|] eqn:E'; try discriminate.
    rewrite map_app, expr_types_nodes, (IH _ _ E') by auto. auto.
Qed.

Lemma root_type n e t : simple e -> typ n e = Some t -> In (expr_id e, Some t) (etypes n e).
Proof.
  destruct e; cbn [simple]; try tauto; intros _ E.
  - cbn in *. rewrite E. auto.
  - cbn in *. rewrite E. auto.
  - cbn [expr_types expr_id]. rewrite E. apply in_app_iff. cbn. auto.
Qed.

Lemma stmts_annotated (m : list (stmt A)) : Forall simple_stmt m -> forall n s, annot_ready s -> untouched (nodes m) s ->
  (forall x, name_type x s = n x) ->
  match after n m with
  | Some (n', ts) =>
      exists s', annotate_module operations const_type m s = Some s' /\ annot_ready s' /\ (forall x, name_type x s' = n' x) /\
        types_stack s' = rev ts ++ types_stack s /\ annotated (mtypes n m) s s' /\ Forall (fun t => stmt_operated t s') m
  | None => annotate_module operations const_type m s = None
  end.
Proof.
  induction 1 as [|t m St SM IH]; intros n s R U NT.
  - cbn. exists s. split; auto. split; auto. split; auto. split; auto. split; [|constructor]. split; [auto|intros v o []].
  - unfold annotate_module in *. cbn [visits]. destruct t as [v x e|e|c t f|c t f]; cbn [simple_stmt] in St; try tauto.
    + cbn [types_after annotate_stmt]. cbn [nodes flat_map stmt_nodes] in U. rewrite <- app_assoc in U.
      pose proof (all_annotated e n s St (untouched_left _ _ _ U) NT) as G.
      destruct (typ n e) as [t|] eqn:T; [|rewrite G; auto]. destruct G as (s1 & E1 & Y1 & K1 & A1 & O1).
      assert (R1 : scope_level (type_symbols s1) = 1) by (rewrite Y1; exact R).
      destruct (add_type_one (type_symbols s1) x t R1) as (tb & EA & LT & BT).
      set (s2 := set_types_stack (types_stack s) (set_type_symbols tb s1)).
      assert (U1 : untouched (v :: nodes m) s1) by (eapply untouched_right; eauto; apply expr_types_nodes; auto).
      assert (TV : types_of s2 v = []) by (apply (proj2 U1); left; auto).
      assert (TE : types_of s2 (expr_id e) = [t]).
      { destruct (proj2 A1 _ _ (root_type n e t St T)) as (t' & [= <-] & Q). exact Q. }
      set (s3 := set_types v [t] s2).
      assert (ES : annotate_stmt operations const_type (Assign v x e) s = Some s3).
      { cbn [annotate_stmt]. rewrite E1, K1, EA. fold s2. cbn zeta. rewrite TV, TE. reflexivity. }
      change (match annotate_stmt operations const_type (Assign v x e) s with Some s' => visits (annotate_stmt operations const_type) m s' | None => None end)
        with (match annotate_stmt operations const_type (Assign v x e) s with Some s' => visits (annotate_stmt operations const_type) m s' | None => None end).
      cbn [annotate_stmt] in ES. rewrite ES.
      assert (A3 : annotated [(v, Some t)] s1 s3).
      { split.
        - intros w W. cbn in W. cbn. rewrite (proj2 (Nat.eqb_neq w v)) by (intros ->; tauto). auto.
        - intros w o [[= <- <-]|[]]. exists t. cbn. rewrite Nat.eqb_refl. auto. }
      assert (U3 : untouched (nodes m) s3) by (apply (untouched_right [v] (nodes m) _ s1 s3 U1 A3); auto).
      assert (N3 : forall y, name_type y s3 = set_type x t n y).
      { intros y. unfold name_type, set_type. cbn [type_symbols s3 s2 set_types set_types_stack set_type_symbols]. rewrite BT.
        destruct (String.eqb y x); auto. rewrite Y1. apply NT. }
      specialize (IH (set_type x t n) s3 LT U3 N3). destruct (after (set_type x t n) m) as [[n' ts]|] eqn:AF; auto.
      destruct IH as (s' & E' & R' & N' & K' & A' & O'). exists s'. split; auto. split; auto. split; auto. split; [rewrite K'; auto|].
      assert (MN : map fst (mtypes (set_type x t n) m) = nodes m) by (eapply module_types_nodes; eauto).
      split.
      * cbn [module_types]. rewrite T. eapply annotated_trans; [|exact A1|].
        -- rewrite map_app. cbn [map fst]. rewrite expr_types_nodes, MN by auto. apply U.
        -- change ((v, Some t) :: mtypes (set_type x t n) m) with ([(v, Some t)] ++ mtypes (set_type x t n) m).
           eapply annotated_trans; eauto. cbn [map fst app]. rewrite MN. apply U1.
      * constructor; auto. cbn. eapply operated_kept; [auto| |exact A'|].
        -- intros w I J. rewrite MN in J. apply (nodup_disjoint _ _ _ (proj1 U) I). right. auto.
        -- eapply operated_kept; [auto| |exact A3|exact O1]. intros w I [J|[]]. cbn in J. apply (nodup_disjoint _ _ _ (proj1 U) I). left. auto.
    + cbn [types_after annotate_stmt]. cbn [nodes flat_map stmt_nodes] in U.
      pose proof (all_annotated e n s St (untouched_left _ _ _ U) NT) as G.
      destruct (typ n e) as [t|] eqn:T; [|rewrite G; auto]. destruct G as (s1 & E1 & Y1 & K1 & A1 & O1). rewrite E1.
      assert (U1 : untouched (nodes m) s1) by (eapply untouched_right; eauto; apply expr_types_nodes; auto).
      assert (R1 : annot_ready s1) by (unfold annot_ready; rewrite Y1; exact R).
      assert (N1 : forall y, name_type y s1 = n y) by (intros y; rewrite (name_type_same y s); auto).
      specialize (IH n s1 R1 U1 N1). destruct (after n m) as [[n' ts]|] eqn:AF; auto.
      destruct IH as (s' & E' & R' & N' & K' & A' & O'). exists s'. split; auto. split; auto. split; auto.
      assert (MN : map fst (mtypes n m) = nodes m) by (eapply module_types_nodes; eauto).
      split; [rewrite K', K1; cbn; rewrite <- app_assoc; auto|]. split.
      * cbn [module_types]. eapply annotated_trans; eauto. rewrite map_app, expr_types_nodes, MN by auto. apply U.
      * constructor; auto. cbn. eapply operated_kept; [auto| |exact A'|exact O1].
        intros w I J. rewrite MN in J. apply (nodup_disjoint _ _ _ (proj1 U) I J).
Qed.

(** ** Validation *)
Definition verdict_of (o : option problem) : verdict := match o with None => Accepted | Some p => Rejected p end.

Lemma satisfied_one (p : list expression_type) t : ets_is_satisfied_by p [t] = accepts_type p t.
Proof.
  unfold ets_is_satisfied_by, id_of_satisfying_type, accepts_type. cbn. unfold ets_is_satisfied_by_one.
  destruct (existsb _ p); auto.
Qed.

Lemma typ_args n i f args t : typ n (Operation i f args) = Some t -> exists ts, all_some (map (typ n) args) = Some ts.
Proof. cbn. destruct (all_some (map (typ n) args)); [eauto|discriminate]. Qed.

Lemma typ_each n args : forall ts, all_some (map (typ n) args) = Some ts -> Forall (fun a => exists t, typ n a = Some t) args.
Proof.
  induction args as [|a args IH]; intros ts E; [constructor|]. cbn in E. destruct (typ n a) as [t|] eqn:T; try discriminate.
  destruct (all_some (map (typ n) args)) as [ts'|] eqn:E'; try discriminate. constructor; eauto.
Qed.

Lemma validate_expr_spec s e : simple e -> forall n t, typ n e = Some t ->
  (forall v o, In (v, o) (etypes n e) -> exists t, o = Some t /\ types_of s v = [t]) -> operated e s ->
  validate_expr s e = verdict_of (problem_in operations const_type (@rev _) n e).
Proof.
  induction e as [i x|i v|i f args IH|i e sel IHe IHs|i e m IHe] using expr_induction; cbn [simple]; intros S n t T H O; try contradiction.
  - cbn. unfold validate_name. destruct (H i (Some (n x))) as (t' & [= <-] & ->); [left; auto|]. destruct (et_defined (n x)); auto.
  - reflexivity.
  - destruct (typ_args _ _ _ _ _ T) as [ts TS]. pose proof (typ_each _ _ _ TS) as TE.
    cbn [validate_expr problem_in]. destruct O as [O1 O2].
    assert (HA : forall a, In a args -> forall v o, In (v, o) (etypes n a) -> exists t, o = Some t /\ types_of s v = [t]).
    { intros a I v o J. apply H. cbn [expr_types]. apply in_app_iff. left. apply in_flat_map. eauto. }
    assert (V : fold_right (fun a r => and_then (validate_expr s a) r) Accepted args =
      verdict_of (first_some (map (problem_in operations const_type (@rev _) n) args))).
    { clear - IH S TE HA O2. induction IH as [|a args Ha _ IH]; auto. cbn in *. destruct S as [S1 S2], O2 as [O2 O3].
      inversion TE as [|? ? [t T] TE']; subst.
      rewrite (Ha S1 n t T (HA a (or_introl eq_refl)) O2). destruct (problem_in operations const_type (@rev _) n a); auto.
      apply IH; auto. intros b I. exact (HA b (or_intror I)). }
    rewrite V. destruct (first_some _); auto. cbn [verdict_of and_then]. rewrite O1. destruct (operations f) as [o|]; auto.
    destruct (length args =? length (op_parameters (signature o))); auto. cbn [negb].
    generalize 1. revert O2. clear - S TE HA. generalize (op_parameters (signature o)) as ps. revert S.
    induction TE as [|a args [t T] TE IH]; intros S ps O2 k.
    { destruct ps; auto. }
    destruct ps as [|p ps]; auto. cbn [validate_arguments map first_mismatch]. destruct S as [S1 S2], O2 as [O2 O3].
    destruct (HA a (or_introl eq_refl) _ _ (root_type n a t S1 T)) as (t' & [= <-] & ->). rewrite satisfied_one, T.
    destruct (accepts_type p t); auto. apply IH; auto. intros b I. apply HA. right; auto.
Qed.

Lemma validate_stmts_spec s (m : list (stmt A)) : Forall simple_stmt m -> forall n r, after n m = Some r ->
  (forall v o, In (v, o) (mtypes n m) -> exists t, o = Some t /\ types_of s v = [t]) -> Forall (fun t => stmt_operated t s) m ->
  validate_module s m = verdict_of (problem_of operations const_type (@rev _) n m).
Proof.
  induction 1 as [|t m St SM IH]; intros n r AF H O; auto. inversion O as [|? ? O1 O2]; subst.
  unfold validate_module in *. cbn [fold_right]. destruct t as [v x e|e|c t f|c t f]; cbn [simple_stmt] in St; try tauto; cbn [types_after] in AF.
  - destruct (typ n e) as [t|] eqn:T; try discriminate. cbn [validate_stmt problem_of]. cbn [module_types] in H.
    rewrite (validate_expr_spec s e St n t T) by (auto; intros w o I; apply H, in_app_iff; auto).
    destruct (problem_in operations const_type (@rev _) n e); auto. cbn [verdict_of and_then]. rewrite T in *.
    unfold validate_name. destruct (H v (Some t)) as (t' & [= <-] & ->); [apply in_app_iff; right; left; auto|].
    destruct (et_defined t); auto. cbn [and_then]. apply (IH _ _ AF); auto. intros w o I. apply H. apply in_app_iff. right. right. auto.
  - destruct (typ n e) as [t|] eqn:T; try discriminate. destruct (after n m) as [[n' ts]|] eqn:AF'; try discriminate.
    cbn [validate_stmt problem_of]. cbn [module_types] in H.
    rewrite (validate_expr_spec s e St n t T) by (auto; intros w o I; apply H, in_app_iff; auto).
    destruct (problem_in operations const_type (@rev _) n e); auto. cbn [verdict_of and_then].
    apply (IH _ _ AF'); auto. intros w o I. apply H. apply in_app_iff. auto.
Qed.
End Proofs.

(** ** Control flow and selections *)
Section Straight.
Context {A : Type}.
Variable operations : string -> option aop.
Variable const_type : A -> expression_type.
Notation ann := (annotate_expr operations const_type).
Notation anns := (annotate_stmt operations const_type).

Lemma visits_app' {X S} (f : X -> S -> option S) l1 l2 s :
  visits f (l1 ++ l2) s = match visits f l1 s with Some s' => visits f l2 s' | None => None end.
Proof. revert s. induction l1 as [|x l1 IH]; intros s; cbn; auto. destruct (f x s); auto. Qed.

Lemma parts_annotated (e : expr A) : forall s, visits anns (map Expr (parts e)) s = ann e s.
Proof.
  induction e as [i x|i v|i f args _|i e sel IHe IHs|i e mm IHe] using expr_induction; intros s.
  - cbn. destruct (annotate_leaf _ _ _); auto.
  - cbn. destruct (annotate_leaf _ _ _); auto.
  - cbn [parts map visits]. change (anns (Expr (Operation i f args)) s) with (ann (Operation i f args) s).
    destruct (ann (Operation i f args) s); auto.
  - cbn [parts]. rewrite map_app, visits_app', IHe. cbn. destruct (ann e s); auto.
  - cbn [parts]. rewrite IHe. reflexivity.
Qed.

Lemma visits_flat (l : list (stmt A)) :
  Forall (fun t => forall s, visits anns (straight_stmt t) s = anns t s) l ->
  forall s, visits anns (flat_map straight_stmt l) s = visits anns l s.
Proof.
  induction 1 as [|t l Ht _ IH]; intros s; cbn [flat_map visits]; auto.
  rewrite visits_app', Ht. destruct (anns t s); auto.
Qed.

Lemma straight_annotated_stmt (t : stmt A) : forall s, visits anns (straight_stmt t) s = anns t s.
Proof.
  induction t as [v x e|e|c t f Ht Hf|c t f Ht Hf] using stmt_induction; intros s.
  - cbn [straight_stmt visits]. destruct (anns _ s); auto.
  - cbn [straight_stmt]. rewrite parts_annotated. auto.
  - cbn [straight_stmt]. rewrite visits_app', parts_annotated.
    change (anns (If c t f) s) with (match ann c s with Some s1 => match visits anns t s1 with Some s2 => visits anns f s2 | None => None end | None => None end).
    destruct (ann c s) as [s1|]; auto. rewrite visits_app', (visits_flat t Ht). destruct (visits anns t s1); auto. apply visits_flat; auto.
  - cbn [straight_stmt]. rewrite visits_app', parts_annotated.
    change (anns (While c t f) s) with (match ann c s with Some s1 => match visits anns t s1 with Some s2 => visits anns f s2 | None => None end | None => None end).
    destruct (ann c s) as [s1|]; auto. rewrite visits_app', (visits_flat t Ht). destruct (visits anns t s1); auto. apply visits_flat; auto.
Qed.

Lemma straight_annotated (m : list (stmt A)) s :
  annotate_module operations const_type (straight m) s = annotate_module operations const_type m s.
Proof. apply visits_flat. apply Forall_forall. intros t _. apply straight_annotated_stmt. Qed.

Lemma and_then_assoc u v w : and_then (and_then u v) w = and_then u (and_then v w).
Proof. destruct u; auto. Qed.

Notation all_of s l := (fold_right (fun a r => and_then (validate_stmt s a) r) Accepted l).
Lemma validate_app s (l1 l2 : list (stmt A)) : all_of s (l1 ++ l2) = and_then (all_of s l1) (all_of s l2).
Proof. induction l1 as [|a l1 IH]; cbn; auto. rewrite IH, and_then_assoc. auto. Qed.

Lemma and_then_accepted v : and_then v Accepted = v.
Proof. destruct v; auto. Qed.

Lemma parts_validated s (e : expr A) : all_of s (map Expr (parts e)) = validate_expr s e.
Proof.
  induction e as [i x|i v|i f args _|i e sel IHe IHs|i e mm IHe] using expr_induction.
  - apply and_then_accepted.
  - reflexivity.
  - cbn [parts map fold_right]. apply and_then_accepted.
  - cbn [parts]. rewrite map_app, validate_app, IHe, IHs. auto.
  - cbn [parts]. rewrite IHe. auto.
Qed.

Lemma validate_flat s (l : list (stmt A)) :
  Forall (fun t => all_of s (straight_stmt t) = validate_stmt s t) l -> all_of s (flat_map straight_stmt l) = all_of s l.
Proof.
  induction 1 as [|t l Ht _ IH]; cbn [flat_map]; auto. rewrite validate_app, Ht, IH. auto.
Qed.

Lemma straight_validated_stmt s (t : stmt A) : all_of s (straight_stmt t) = validate_stmt s t.
Proof.
  induction t as [v x e|e|c t f Ht Hf|c t f Ht Hf] using stmt_induction; cbn [straight_stmt].
  - cbn [fold_right]. apply and_then_accepted.
  - apply parts_validated.
  - rewrite !validate_app, parts_validated, !validate_flat by auto. auto.
  - rewrite !validate_app, parts_validated, !validate_flat by auto. auto.
Qed.

Lemma straight_validated s (m : list (stmt A)) : validate_module s (straight m) = validate_module s m.
Proof. apply validate_flat. apply Forall_forall. intros t _. apply straight_validated_stmt. Qed.

(** The vertices that get types and those that do not *)
Fixpoint typed (e : expr A) : list nat :=
  match e with
  | Name v _ | Const v _ => [v]
  | Operation v _ args => flat_map typed args ++ [v]
  | Subscript _ e s => typed e ++ typed s
  | Attribute _ e _ => typed e
  end.
Fixpoint untyped (e : expr A) : list nat :=
  match e with
  | Name _ _ | Const _ _ => []
  | Operation _ _ args => flat_map untyped args
  | Subscript v e s => v :: untyped e ++ untyped s
  | Attribute v e _ => v :: untyped e
  end.
Fixpoint typed_stmt (t : stmt A) : list nat :=
  match t with
  | Assign v _ e => typed e ++ [v]
  | Expr e => typed e
  | If c t f | While c t f => typed c ++ flat_map typed_stmt t ++ flat_map typed_stmt f
  end.
Fixpoint untyped_stmt (t : stmt A) : list nat :=
  match t with
  | Assign _ _ e | Expr e => untyped e
  | If c t f | While c t f => untyped c ++ flat_map untyped_stmt t ++ flat_map untyped_stmt f
  end.

Lemma flat_split {X} (f g h : X -> list nat) l : Forall (fun x => Permutation (f x) (g x ++ h x)) l ->
  Permutation (flat_map f l) (flat_map g l ++ flat_map h l).
Proof.
  induction 1 as [|x l Hx _ IH]; cbn; auto. rewrite Hx, IH, <- !app_assoc. apply Permutation_app_head.
  rewrite !app_assoc. apply Permutation_app_tail, Permutation_app_comm.
Qed.

Lemma expr_split (e : expr A) : Permutation (expr_nodes e) (typed e ++ untyped e).
Proof.
  induction e as [i x|i v|i f args IH|i e sel IHe IHs|i e mm IHe] using expr_induction; cbn; auto.
  - rewrite (flat_split _ _ _ _ IH), <- !app_assoc. apply Permutation_app_head. apply Permutation_app_comm.
  - rewrite IHe, IHs, app_assoc. rewrite <- Permutation_cons_append. apply Permutation_cons_app.
    rewrite <- !app_assoc. apply Permutation_app_head. rewrite !app_assoc. apply Permutation_app_tail, Permutation_app_comm.
  - rewrite IHe. rewrite <- Permutation_cons_append. apply Permutation_cons_app. auto.
Qed.

Lemma branches_split c (t f : list (stmt A)) :
  Forall (fun t => Permutation (stmt_nodes t) (typed_stmt t ++ untyped_stmt t)) t ->
  Forall (fun t => Permutation (stmt_nodes t) (typed_stmt t ++ untyped_stmt t)) f ->
  Permutation (expr_nodes c ++ flat_map stmt_nodes t ++ flat_map stmt_nodes f)
    ((typed c ++ flat_map typed_stmt t ++ flat_map typed_stmt f) ++ untyped c ++ flat_map untyped_stmt t ++ flat_map untyped_stmt f).
Proof.
  intros Ht Hf. pose proof (expr_split c) as Hc. pose proof (flat_split _ _ _ _ Ht) as Kt. pose proof (flat_split _ _ _ _ Hf) as Kf.
  rewrite (Permutation_count_occ Nat.eq_dec) in *. intros v. specialize (Hc v). specialize (Kt v). specialize (Kf v).
  rewrite !count_occ_app in *. lia.
Qed.

Lemma stmt_split (t : stmt A) : Permutation (stmt_nodes t) (typed_stmt t ++ untyped_stmt t).
Proof.
  induction t as [v x e|e|c t f Ht Hf|c t f Ht Hf] using stmt_induction; cbn [stmt_nodes typed_stmt untyped_stmt].
  - rewrite expr_split, <- !app_assoc. apply Permutation_app_head, Permutation_app_comm.
  - apply expr_split.
  - apply branches_split; auto.
  - apply branches_split; auto.
Qed.

(** Annotation leaves other vertices alone *)
Definition leaves_types (vs : list nat) (s s' : annot) : Prop := forall v, ~ In v vs -> types_of s' v = types_of s v.

Lemma visits_leave {X} (f : X -> annot -> option annot) (g : X -> list nat) l :
  Forall (fun x => forall s s', f x s = Some s' -> leaves_types (g x) s s') l ->
  forall s s', visits f l s = Some s' -> leaves_types (flat_map g l) s s'.
Proof.
  induction 1 as [|x l Hx _ IH]; intros s s' E v I; cbn in *; [congruence|].
  destruct (f x s) as [s1|] eqn:E1; try discriminate. rewrite (IH _ _ E), (Hx _ _ E1); auto; intros J; apply I, in_app_iff; auto.
Qed.

Lemma pop_types_of n : forall s ts s', pop_types n s = Some (ts, s') -> types_of s' = types_of s.
Proof.
  induction n as [|n IH]; intros s ts s' E; cbn in E; [injection E as _ <-; auto|].
  destruct (types_stack s) as [|t l]; try discriminate. destruct (pop_types n _) as [[us s1]|] eqn:E1; try discriminate.
  injection E as _ <-. apply IH in E1. auto.
Qed.

Lemma leaf_leaves v t s s' : annotate_leaf v t s = Some s' -> leaves_types [v] s s'.
Proof.
  unfold annotate_leaf. destruct (types_of s v); try discriminate. intros [= <-] w I. cbn.
  destruct (Nat.eqb_spec w v); auto. exfalso. apply I. left. auto.
Qed.

Lemma expr_leaves (e : expr A) : forall s s', ann e s = Some s' -> leaves_types (typed e) s s'.
Proof.
  induction e as [i x|i v|i f args IH|i e sel IHe IHs|i e mm IHe] using expr_induction; intros s s' E.
  - apply leaf_leaves in E. auto.
  - apply leaf_leaves in E. auto.
  - cbn [annotate_expr] in E. destruct (types_of s i) eqn:T; try discriminate.
    destruct (visits _ args s) as [s1|] eqn:E1; try discriminate.
    pose proof (visits_leave _ _ _ IH _ _ E1) as L1.
    destruct (pop_types (length args) s1) as [[ts s2]|] eqn:E2; try discriminate. apply pop_types_of in E2.
    intros v I. cbn [typed] in I.
    assert (v <> i /\ ~ In v (flat_map typed args)) as [N I'].
    { split; intros J; apply I, in_app_iff; [right; left; auto|left; auto]. }
    assert (B : types_of s2 v = types_of s v) by (rewrite E2; apply L1; auto).
    destruct (operations f) as [o|].
    + destruct (operation_of s2 i); try discriminate. cbn [types_of set_operation] in E. destruct (types_of s2 i); try discriminate.
      destruct (if length args =? _ then _ else _) as [t|]; try discriminate. injection E as <-. cbn.
      destruct (Nat.eqb_spec v i); auto. contradiction.
    + injection E as <-. cbn. destruct (Nat.eqb_spec v i); auto. contradiction.
  - cbn in E. destruct (ann e s) as [s1|] eqn:E1; try discriminate. intros v I. cbn in I.
    rewrite (IHs _ _ E), (IHe _ _ E1); auto; intros J; apply I, in_app_iff; auto.
  - apply IHe in E. auto.
Qed.

Lemma stmt_leaves (t : stmt A) : forall s s', anns t s = Some s' -> leaves_types (typed_stmt t) s s'.
Proof.
  induction t as [v x e|e|c t f Ht Hf|c t f Ht Hf] using stmt_induction; intros s s' E.
  - cbn in E. destruct (ann e s) as [s1|] eqn:E1; try discriminate. destruct (types_stack s1) as [|t l]; try discriminate.
    destruct (add_value _ x t) as [tb|]; try discriminate. cbn in E. destruct (types_of s1 v); try discriminate.
    destruct (types_of s1 (expr_id e)) as [|t' [|? ?]]; try discriminate. injection E as <-. intros w I. cbn in I |- *.
    destruct (Nat.eqb_spec w v) as [->|N]; [exfalso; apply I, in_app_iff; right; left; auto|].
    apply (expr_leaves _ _ _ E1). intros J. apply I, in_app_iff. auto.
  - apply expr_leaves in E. auto.
  - change (match ann c s with Some s1 => match visits anns t s1 with Some s2 => visits anns f s2 | None => None end | None => None end = Some s') in E.
    destruct (ann c s) as [s1|] eqn:E1; try discriminate. destruct (visits anns t s1) as [s2|] eqn:E2; try discriminate.
    intros v I. cbn [typed_stmt] in I. rewrite !in_app_iff in I.
    rewrite (visits_leave _ _ _ Hf _ _ E), (visits_leave _ _ _ Ht _ _ E2), (expr_leaves _ _ _ E1); auto.
  - change (match ann c s with Some s1 => match visits anns t s1 with Some s2 => visits anns f s2 | None => None end | None => None end = Some s') in E.
    destruct (ann c s) as [s1|] eqn:E1; try discriminate. destruct (visits anns t s1) as [s2|] eqn:E2; try discriminate.
    intros v I. cbn [typed_stmt] in I. rewrite !in_app_iff in I.
    rewrite (visits_leave _ _ _ Hf _ _ E), (visits_leave _ _ _ Ht _ _ E2), (expr_leaves _ _ _ E1); auto.
Qed.

(** What is accepted uses no selections *)
Definition selects (e : expr A) : Prop := match e with Subscript _ _ _ | Attribute _ _ _ => True | _ => False end.

Lemma arguments_typed s f v args : forall i ps, length args = length ps ->
  validate_arguments s f v i args ps = Accepted -> Forall (fun a => types_of s (expr_id a) <> []) (args : list (expr A)).
Proof.
  induction args as [|a args IH]; intros i [|p ps] L E; try discriminate; constructor.
  - cbn in E. intros T. rewrite T in E. discriminate.
  - cbn [validate_arguments] in E. destruct (ets_is_satisfied_by p (types_of s (expr_id a))) eqn:X; try discriminate. eapply IH; eauto.
Qed.

Lemma selects_untyped (e : expr A) : selects e -> In (expr_id e) (untyped e).
Proof. destruct e; cbn; tauto. Qed.

Lemma accepted_expr s (e : expr A) : (forall v, In v (untyped e) -> types_of s v = []) ->
  validate_expr s e = Accepted -> Forall simple (parts e).
Proof.
  induction e as [i x|i v|i f args IH|i e sel IHe IHs|i e mm IHe] using expr_induction; intros U E.
  - repeat constructor.
  - repeat constructor.
  - cbn [parts]. constructor; auto. cbn [validate_expr] in E.
    destruct (fold_right (fun a r => and_then (validate_expr s a) r) Accepted args) eqn:F; try discriminate. cbn [and_then] in E.
    destruct (operation_of s i) as [o|]; try discriminate.
    destruct (Nat.eqb_spec (length args) (length (op_parameters (signature o)))) as [L|]; try discriminate. cbn [negb] in E.
    pose proof (arguments_typed _ _ _ _ _ _ L E) as TA. cbn [simple]. cbn [untyped] in U. clear E L. 
    induction IH as [|a args Ha _ IH]; cbn; auto. cbn in F. destruct (validate_expr s a) eqn:V; try discriminate. cbn in F.
    inversion TA as [|? ? T1 T2]; subst. cbn [flat_map] in U. split.
    + assert (P : Forall simple (parts a)) by (apply Ha; auto; intros v I; apply U, in_app_iff; auto).
      assert (NS : ~ selects a).
      { intros SE. apply T1, U, in_app_iff. left. apply selects_untyped; auto. }
      destruct a; cbn [selects] in NS; try tauto; inversion P; auto.
    + apply IH; auto. intros v I. apply U, in_app_iff; auto.
  - cbn in E. destruct (validate_expr s e) eqn:V; try discriminate. cbn [and_then] in E. cbn [parts]. cbn [untyped] in U. apply Forall_app. split.
    + apply IHe; auto. intros v I. apply U. right. apply in_app_iff; auto.
    + apply IHs; auto. intros v I. apply U. right. apply in_app_iff; auto.
  - cbn [parts]. apply IHe; auto. intros v I. apply U. right. auto.
Qed.

Lemma forall_expr_simple (l : list (expr A)) : Forall simple l -> Forall simple_stmt (map Expr l).
Proof. induction 1; cbn; constructor; auto. Qed.

Lemma parts_typed (e : expr A) : flat_map typed (parts e) = typed e.
Proof.
  induction e as [i x|i v|i f args _|i e sel IHe IHs|i e mm IHe] using expr_induction; cbn [parts]; auto.
  - cbn [flat_map]. apply app_nil_r.
  - rewrite flat_map_app, IHe, IHs. auto.
Qed.
Lemma parts_untyped (e : expr A) : incl (flat_map untyped (parts e)) (untyped e).
Proof.
  induction e as [i x|i v|i f args _|i e sel IHe IHs|i e mm IHe] using expr_induction; cbn [parts]; try apply incl_refl.
  - cbn [flat_map]. rewrite app_nil_r. apply incl_refl.
  - rewrite flat_map_app. cbn [untyped]. apply incl_tl, incl_app_app; auto.
  - cbn [untyped]. apply incl_tl; auto.
Qed.
Lemma map_expr_nodes (g : expr A -> list nat) (h : stmt A -> list nat) l : (forall e, h (Expr e) = g e) ->
  flat_map h (map Expr l) = flat_map g l.
Proof. intros H. induction l; cbn; auto. rewrite H. f_equal; auto. Qed.

Lemma straight_typed_stmt (t : stmt A) : flat_map typed_stmt (straight_stmt t) = typed_stmt t.
Proof.
  assert (F : forall l, Forall (fun t => flat_map typed_stmt (straight_stmt t) = typed_stmt t) l ->
    flat_map typed_stmt (flat_map straight_stmt l) = flat_map typed_stmt l).
  { induction 1; cbn; auto. rewrite flat_map_app. f_equal; auto. }
  induction t as [v x e|e|c t f Ht Hf|c t f Ht Hf] using stmt_induction; cbn [straight_stmt].
  - cbn. apply app_nil_r.
  - rewrite (map_expr_nodes typed) by auto. apply parts_typed.
  - rewrite !flat_map_app, !F, (map_expr_nodes typed), parts_typed by auto. auto.
  - rewrite !flat_map_app, !F, (map_expr_nodes typed), parts_typed by auto. auto.
Qed.
Lemma straight_typed (m : list (stmt A)) : flat_map typed_stmt (straight m) = flat_map typed_stmt m.
Proof. unfold straight. induction m as [|t m IH]; cbn; auto. rewrite flat_map_app, straight_typed_stmt, IH. auto. Qed.

Lemma straight_untyped_stmt (t : stmt A) : incl (flat_map untyped_stmt (straight_stmt t)) (untyped_stmt t).
Proof.
  assert (F : forall l, Forall (fun t => incl (flat_map untyped_stmt (straight_stmt t)) (untyped_stmt t)) l ->
    incl (flat_map untyped_stmt (flat_map straight_stmt l)) (flat_map untyped_stmt l)).
  { induction 1; cbn; [apply incl_refl|]. rewrite flat_map_app. apply incl_app_app; auto. }
  induction t as [v x e|e|c t f Ht Hf|c t f Ht Hf] using stmt_induction; cbn [straight_stmt].
  - cbn. rewrite app_nil_r. apply incl_refl.
  - rewrite (map_expr_nodes untyped) by auto. apply parts_untyped.
  - rewrite !flat_map_app, (map_expr_nodes untyped) by auto. cbn [untyped_stmt]. repeat apply incl_app_app; auto. apply parts_untyped.
  - rewrite !flat_map_app, (map_expr_nodes untyped) by auto. cbn [untyped_stmt]. repeat apply incl_app_app; auto. apply parts_untyped.
Qed.
Lemma straight_untyped (m : list (stmt A)) : incl (flat_map untyped_stmt (straight m)) (flat_map untyped_stmt m).
Proof.
  unfold straight. induction m as [|t m IH]; cbn; [apply incl_refl|]. rewrite flat_map_app. apply incl_app_app; auto. apply straight_untyped_stmt.
Qed.

Definition flat (t : stmt A) : Prop := match t with Assign _ _ _ => True | Expr e => ~ selects e | _ => False end.
Lemma parts_flat (e : expr A) : Forall (fun e => ~ selects e) (parts e).
Proof.
  induction e as [i x|i v|i f args _|i e sel IHe IHs|i e mm IHe] using expr_induction; cbn [parts]; auto.
  apply Forall_app; auto.
Qed.
Lemma parts_flat' (e : expr A) : Forall flat (map Expr (parts e)).
Proof. generalize (parts_flat e). induction 1; cbn; constructor; auto. Qed.
Lemma straight_flat (m : list (stmt A)) : Forall flat (straight m).
Proof.
  assert (F : forall l, Forall (fun t => Forall flat (straight_stmt t)) l -> Forall flat (flat_map straight_stmt l)).
  { induction 1; cbn; auto. apply Forall_app; auto. }
  apply F. apply Forall_forall. intros t _. induction t as [v x e|e|c t f Ht Hf|c t f Ht Hf] using stmt_induction; cbn [straight_stmt].
  - repeat constructor.
  - apply parts_flat'.
  - repeat (apply Forall_app; split); auto. apply parts_flat'.
  - repeat (apply Forall_app; split); auto. apply parts_flat'.
Qed.

Lemma accepted_flat s' (U : list nat) : (forall v, In v U -> types_of s' v = []) ->
  forall l s0, Forall flat l -> visits anns l s0 = Some s' ->
  (forall v, In v U -> types_of s0 v = [] /\ ~ In v (flat_map typed_stmt l)) ->
  incl (flat_map untyped_stmt l) U -> all_of s' l = Accepted -> Forall simple_stmt l.
Proof.
  intros HU. induction l as [|t l IH]; intros s0 Hf E H0 Hi V; [constructor|].
  inversion Hf as [|? ? Ft Fl]; subst. cbn [visits] in E. destruct (anns t s0) as [s1|] eqn:E1; try discriminate.
  cbn [fold_right] in V. destruct (validate_stmt s' t) eqn:Vt; try discriminate. cbn [and_then] in V.
  cbn [flat_map] in Hi, H0. apply incl_app_inv in Hi as [Hi1 Hi2].
  assert (H1 : forall v, In v U -> types_of s1 v = [] /\ ~ In v (flat_map typed_stmt l)).
  { intros v I. destruct (H0 v I) as [T N]. rewrite in_app_iff in N. split; [|tauto]. rewrite (stmt_leaves _ _ _ E1); auto. }
  constructor; [|apply (IH s1); auto].
  destruct t as [v x e|e|c t f|c t f]; cbn [flat] in Ft; try tauto; cbn [simple_stmt].
  - cbn [validate_stmt] in Vt. destruct (validate_expr s' e) eqn:Ve; try discriminate.
    assert (P : Forall simple (parts e)) by (apply (accepted_expr s'); auto; intros w I; apply HU, Hi1; auto).
    assert (NS : ~ selects e).
    { intros SE. apply selects_untyped in SE. cbn in E1. destruct (ann e s0) as [s2|] eqn:E2; try discriminate.
      destruct (types_stack s2) as [|ty k]; try discriminate. destruct (add_value _ x ty) as [tb|]; try discriminate.
      cbn in E1. destruct (types_of s2 v); try discriminate.
      destruct (H0 (expr_id e) (Hi1 _ SE)) as [T N]. rewrite in_app_iff in N. cbn [typed_stmt] in N. rewrite in_app_iff in N.
      rewrite (expr_leaves _ _ _ E2) in E1 by tauto. rewrite T in E1. discriminate. }
    destruct e; cbn [selects] in NS; try tauto; inversion P; auto.
  - cbn [validate_stmt] in Vt.
    assert (P : Forall simple (parts e)) by (apply (accepted_expr s'); auto; intros w I; apply HU, Hi1; auto).
    destruct e; cbn [selects] in Ft; try tauto; inversion P; auto.
Qed.

Lemma accepted_simple (m : list (stmt A)) s s' : unannotated (nodes m) s ->
  annotate_module operations const_type m s = Some s' -> validate_module s' m = Accepted -> Forall simple_stmt (straight m).
Proof.
  intros [ND U] E V.
  assert (SP : Permutation (nodes m) (flat_map typed_stmt m ++ flat_map untyped_stmt m)).
  { apply flat_split. apply Forall_forall. intros t _. apply stmt_split. }
  assert (ND' := Permutation_NoDup SP ND).
  assert (HD : forall v, In v (flat_map untyped_stmt m) -> types_of s v = [] /\ ~ In v (flat_map typed_stmt m)).
  { intros v I. split.
    - apply U. apply (Permutation_in v (Permutation_sym SP)), in_app_iff; auto.
    - intros J. apply in_split in I as (l1 & l2 & EQ). rewrite EQ, app_assoc in ND'. apply NoDup_remove_2 in ND'. apply ND'. rewrite !in_app_iff. auto. }
  rewrite <- straight_annotated in E. rewrite <- straight_validated in V.
  apply (accepted_flat s' (flat_map untyped_stmt m)) with (s0 := s); auto.
  - intros v I. destruct (HD v I) as [T N]. rewrite <- T.
    apply (visits_leave anns typed_stmt (straight m)) with (s := s) (s' := s'); auto.
    + apply Forall_forall. intros t _ s1 s2. apply stmt_leaves.
    + rewrite straight_typed. auto.
  - apply straight_flat.
  - rewrite straight_typed. auto.
  - apply straight_untyped.
Qed.
End Straight.
