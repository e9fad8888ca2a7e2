(** * C57: what validation accepts and reports; C58: accepted modules can be executed *)
From Coq Require Import String List Bool Arith ZArith Lia Permutation.
From Verif Require Import AstModel SymbolModel SymbolProofs FlagModel FlagSpec FlagProofs AnnotateModel AnnotateSpec AnnotateProofs AnnotateProps
  IoModel IoSpec IoProofs ExecModel ExecSpec ExecProofs ExecProps InterpretModel InterpretSpec InterpretProofs.
Import ListNotations.
Open Scope string_scope.
Open Scope list_scope.

(** ** C57 *)

(** Validation of a module that was annotated reports the first problem, from the left to the
    right and from the inside to the outside, and accepts the module if there is none; no
    assertion fails. *)
Theorem C57_verdict (A : Type) (operations : string -> option aop) (const_type : A -> expression_type) (m : list (stmt A)) (s : annot) r :
  Forall simple_stmt m -> annot_ready s -> unannotated (nodes m) s ->
  types_after operations const_type (@rev _) (known_types s) m = Some r ->
  exists s', annotate_module operations const_type m s = Some s' /\
    validate_module s' m =
      match problem_of operations const_type (@rev _) (known_types s) m with
      | None => Accepted
      | Some p => Rejected p
      end.
Proof.
  intros S R U E. pose proof (stmts_annotated operations const_type m S (known_types s) s R U (fun _ => eq_refl)) as H.
  rewrite E in H. destruct r as [n' ts]. destruct H as (s' & E' & _ & _ & _ & [_ A2] & O).
  exists s'. split; auto. rewrite (validate_stmts_spec operations const_type s' m S _ _ E A2 O). unfold verdict_of.
  destruct (problem_of _ _ _ _ m); auto.
Qed.
Print Assumptions C57_verdict.

(** There is no problem exactly if the module is valid. *)
Theorem C57_accepts (A : Type) (operations : string -> option aop) (const_type : A -> expression_type) arrange (m : list (stmt A)) (n : typing) r :
  Forall simple_stmt m -> types_after operations const_type arrange n m = Some r ->
  problem_of operations const_type arrange n m = None <-> valid_module operations const_type arrange n m.
Proof.
  intros S. revert n r.
  assert (HE : forall n e, simple e -> (exists t, type_in operations const_type arrange n e = Some t) ->
    problem_in operations const_type arrange n e = None <-> valid operations const_type arrange n e).
  { intros n e. induction e as [i x|i v|i f args IH|i e sel IHe IHs|i e mm IHe] using expr_induction; cbn [simple]; intros SE [t T]; try contradiction.
    - cbn. destruct (et_defined (n x)); intuition discriminate.
    - cbn. tauto.
    - cbn [problem_in valid].
      assert (TA : Forall (fun a => exists t, type_in operations const_type arrange n a = Some t) args).
      { cbn in T. destruct (all_some (map (type_in operations const_type arrange n) args)) as [ts|] eqn:TS; try discriminate. clear - TS. revert ts TS.
        induction args as [|a args IH]; intros ts TS; [constructor|]. cbn in TS.
        destruct (type_in operations const_type arrange n a) eqn:X; try discriminate.
        destruct (all_some (map (type_in operations const_type arrange n) args)) as [us|]; try discriminate. constructor; eauto. }
      assert (HA : first_some (map (problem_in operations const_type arrange n) args) = None <->
        fold_right (fun a P => valid operations const_type arrange n a /\ P) True args).
      { clear T. induction IH as [|a args Ha _ IH]; cbn; [tauto|]. cbn in SE. destruct SE as [S1 S2]. inversion TA as [|? ? T1 T2]; subst.
        specialize (Ha S1 T1). specialize (IH S2 T2). destruct (problem_in operations const_type arrange n a).
        - split; [discriminate|]. intros [V _]. apply Ha in V. discriminate.
        - rewrite IH. tauto. }
      destruct (first_some _).
      { split; [discriminate|]. intros [V _]. apply HA in V. discriminate. }
      destruct (operations f) as [o|].
      2: { split; [discriminate|]. intros (_ & o & X & _). discriminate. }
      assert (HM : forall k ps, length args = length ps ->
        first_mismatch k ps (map (type_in operations const_type arrange n) args) = None <->
        Forall2 (fun p a => exists t, type_in operations const_type arrange n a = Some t /\ exists q, In q p /\ et_is_satisfied_by q t = true) ps args).
      { clear - TA. induction TA as [|a args [t T] _ IH]; intros k ps L; destruct ps as [|p ps]; try discriminate; cbn.
        - split; auto.
        - injection L as L. rewrite T. unfold accepts_type. destruct (existsb (fun q => et_is_satisfied_by q t) p) eqn:X.
          + rewrite (IH (Datatypes.S k) ps L). split; [|intros F; inversion F; auto]. intros F. constructor; auto. exists t. split; auto.
            apply existsb_exists in X. auto.
          + split; [discriminate|]. intros F. inversion F as [|? ? ? ? (t' & T' & q & Q)]; subst. rewrite T in T'. injection T' as <-.
            assert (existsb (fun q => et_is_satisfied_by q t) p = true) by (apply existsb_exists; eauto). congruence. }
      destruct (Nat.eqb_spec (length args) (length (op_parameters (signature o)))) as [L|L].
      + specialize (HM 1 _ L). destruct (first_mismatch _ _ _).
        * split; [discriminate|]. intros (_ & o' & [= <-] & F). apply HM in F. discriminate.
        * split; auto. intros _. split; [apply HA; auto|]. exists o. split; auto. apply HM; auto.
      + split; [discriminate|]. intros (_ & o' & [= <-] & F). exfalso. apply L. clear -F. induction F; cbn; auto. }
  induction S as [|t m St _ IH]; intros n r E; [cbn; tauto|].
  destruct t as [v x e|e|c t f|c t f]; cbn [simple_stmt] in St; try contradiction; cbn [types_after problem_of valid_module] in *;
    destruct (type_in operations const_type arrange n e) as [t|] eqn:T; try discriminate; pose proof (HE n e St (ex_intro _ t T)) as He.
  - destruct (problem_in operations const_type arrange n e).
    + split; [discriminate|]. intros [V _]. apply He in V. discriminate.
    + destruct (et_defined t) eqn:D.
      * rewrite (IH _ _ E). split.
        -- intros V. split; [apply He; auto|]. exists t. auto.
        -- intros (_ & t' & [= <-] & _ & V). auto.
      * split; [discriminate|]. intros (_ & t' & [= <-] & D' & _). congruence.
  - destruct (types_after operations const_type arrange n m) as [r'|] eqn:E'; try discriminate. 
    destruct (problem_in operations const_type arrange n e).
    + split; [discriminate|]. intros [V _]. apply He in V. discriminate.
    + rewrite (IH _ _ E'). tauto.
Qed.
Print Assumptions C57_accepts.

(** With the operations of the library the module need not be known to have types, and the types
    of arguments are handed over as they are written. *)
Theorem C57_library (A : Type) (const_type : A -> expression_type) (m : list (stmt A)) (s : annot) :
  Forall simple_stmt m -> annot_ready s -> unannotated (nodes m) s ->
  exists s', annotate_module library const_type m s = Some s' /\
    validate_module s' m =
      match problem_of library const_type (fun ts => ts) (known_types s) m with
      | None => Accepted
      | Some p => Rejected p
      end /\
    (validate_module s' m = Accepted <-> valid_module library const_type (fun ts => ts) (known_types s) m).
Proof.
  intros S R U. destruct (C49_library_types A const_type m s S R U) as (s1 & n' & ts & _ & T & _).
  destruct (C49_symmetric A library const_type (fun f o F => proj2 (C49_library f o (map (fun _ => default_expression_type) (op_parameters (signature o))) F (map_length _ _))))
    as (EE & _ & EA).
  pose proof T as T'. rewrite <- EA in T'. destruct (C57_verdict A library const_type m s _ S R U T') as (s' & E & V). exists s'. split; auto.
  assert (PE : forall n e, problem_in library const_type (@rev _) n e = problem_in library const_type (fun ts => ts) n e).
  { intros n e. induction e as [i x|i v|i f args IH|i e sel IHe IHs|i e mm IHe] using expr_induction; auto. cbn [problem_in].
    assert (M : map (problem_in library const_type (@rev _) n) args = map (problem_in library const_type (fun ts => ts) n) args).
    { induction IH as [|a args Ha _ IH]; cbn; auto. rewrite Ha, IH. auto. }
    rewrite M. rewrite (map_ext _ _ (EE n)). auto. }
  assert (PM : forall n, problem_of library const_type (@rev _) n m = problem_of library const_type (fun ts => ts) n m).
  { clear - PE EE. induction m as [|[v x e|e|c t f|c t f] m IH]; intros n; cbn [problem_of]; auto; rewrite PE, ?EE.
    - destruct (problem_in _ _ _ n e); auto. destruct (type_in _ _ _ n e); auto. rewrite IH. auto.
    - rewrite IH. auto. }
  rewrite PM in V. split; auto. rewrite <- (C57_accepts A library const_type _ m _ _ S T).
  rewrite V. destruct (problem_of library const_type (fun ts => ts) (known_types s) m); intuition discriminate.
Qed.
Print Assumptions C57_library.

(** Conditions and branches are annotated and validated as if they were executed one after the other, and the
    parts of subscripts and attributes as if they were statements: for every module. *)
Theorem C57_control_flow (A : Type) (operations : string -> option aop) (const_type : A -> expression_type) (m : list (stmt A)) (s : annot) :
  annotate_module operations const_type m s = annotate_module operations const_type (straight m) s /\
  validate_module s m = validate_module s (straight m).
Proof. split; symmetry; [apply straight_annotated|apply straight_validated]. Qed.
Print Assumptions C57_control_flow.

(** Every module, with control flow, subscripts and attributes: it is accepted exactly if all conditions and
    branches, one after the other, are a valid module, in which no value of a subscript or attribute is assigned or
    passed to an operation. *)
Theorem C57_every_module (A : Type) (operations : string -> option aop) (const_type : A -> expression_type) (m : list (stmt A)) (s : annot) :
  (forall f o, operations f = Some o -> forall ts, length ts = length (op_parameters (signature o)) -> exists t, result_type o ts = Some t) ->
  annot_ready s -> unannotated (nodes m) s ->
  (exists s', annotate_module operations const_type m s = Some s' /\ validate_module s' m = Accepted) <->
  valid_module operations const_type (@rev _) (known_types s) (straight m).
Proof.
  intros T R U.
  assert (US : Forall simple_stmt (straight m) -> unannotated (nodes (straight m)) s).
  { intros S. assert (N : forall l : list (stmt A), Forall simple_stmt l -> nodes l = flat_map typed_stmt l).
    { clear. assert (NE : forall e : expr A, simple e -> expr_nodes e = typed e).
      { intros e. induction e as [i x|i v|i f args IH|i e sel IHe IHs|i e mm IHe] using expr_induction; cbn; intros S; auto; try contradiction.
        f_equal. induction IH as [|a args Ha _ IH]; cbn; auto. cbn in S. destruct S. f_equal; auto. }
      unfold nodes. induction 1 as [|t l Ht _ IH]; cbn; auto. rewrite IH. f_equal. destruct t; cbn in *; try contradiction; rewrite NE; auto. }
    rewrite (N _ S), straight_typed.
    assert (SP : Permutation (nodes m) (flat_map typed_stmt m ++ flat_map untyped_stmt m)).
    { apply flat_split. apply Forall_forall. intros t _. apply stmt_split. }
    destruct U as [ND U]. apply (Permutation_NoDup SP) in ND. split.
    - revert ND. clear. induction (flat_map typed_stmt m) as [|v l IH]; intros ND; [constructor|]. inversion ND as [|? ? N1 N2]; subst.
      constructor; auto. intros I. apply N1, in_app_iff; auto.
    - intros v I. apply U. apply (Permutation_in v (Permutation_sym SP)), in_app_iff; auto. }
  assert (VS : forall n l, valid_module operations const_type (@rev _) n l -> Forall simple_stmt l).
  { clear. assert (VE : forall n e, valid operations const_type (@rev _) n e -> simple e).
    { intros n e. induction e as [i x|i v|i f args IH|i e sel IHe IHs|i e mm IHe] using expr_induction; cbn; auto.
      intros [V _]. induction IH as [|a args Ha _ IH]; cbn in *; auto. destruct V. split; auto. }
    intros n l. revert n. induction l as [|[v x e|e|c t f|c t f] l IH]; intros n; cbn [valid_module]; try contradiction; constructor.
    - destruct H as [V _]. cbn. eauto.
    - destruct H as (_ & t & _ & _ & V). eauto.
    - destruct H as [V _]. cbn. eauto.
    - destruct H as [_ V]. eauto. }
  split.
  - intros (s' & E & V). pose proof (accepted_simple operations const_type m s s' U E V) as S.
    destruct (types_total operations const_type (straight m) T S (known_types s)) as [r TA].
    destruct (C57_verdict A operations const_type (straight m) s r S R (US S) TA) as (s2 & E2 & V2).
    rewrite <- straight_annotated in E. rewrite E in E2. injection E2 as <-. rewrite straight_validated in V2. rewrite V in V2.
    apply (C57_accepts A operations const_type (@rev _) (straight m) (known_types s) r S TA).
    destruct (problem_of _ _ _ _ _); auto. discriminate.
  - intros V. pose proof (VS _ _ V) as S.
    destruct (types_total operations const_type (straight m) T S (known_types s)) as [r TA].
    destruct (C57_verdict A operations const_type (straight m) s r S R (US S) TA) as (s2 & E2 & V2).
    exists s2. rewrite straight_annotated in E2. rewrite straight_validated in V2. split; auto.
    apply (C57_accepts A operations const_type (@rev _) (straight m) (known_types s) r S TA) in V. rewrite V in V2. auto.
Qed.
Print Assumptions C57_every_module.

Definition undefined_module : list (stmt nat) :=
  [Assign 1 "c" (Operation 2 "add" [Const 3 0; Operation 4 "abs" [Name 5 "a"]])].
Definition wrong_module : list (stmt nat) :=
  [Assign 1 "c" (Operation 2 "add" [Const 3 5; Const 4 0]); Expr (Operation 5 "sub" [])].
Example C57_case :
  (Forall simple_stmt typed_module /\ Forall simple_stmt undefined_module /\ Forall simple_stmt wrong_module) /\
  let v s m := match annotate_module library case_type m s with Some s' => validate_module s' m | None => Failed end in
  v annot_initial undefined_module = Rejected (UndefinedIdentifier "a" 5) /\
  v annot_initial wrong_module = Rejected (WrongTypeOfArgument "add" 2 2) /\
  v annot_initial [Expr (Operation 1 "abs" [])] = Rejected (WrongNumberOfArguments "abs" 1 0 1) /\
  v annot_initial [Expr (Operation 1 "sub" [])] = Rejected (UndefinedOperation "sub" 1) /\
  match add_global_symbols [("a", field_type)] annot_initial with
  | Some s => v s typed_module = Accepted
  | None => False
  end.
Proof. split; [repeat constructor|]. vm_compute. repeat split. Qed.

(** What is assigned in one branch counts as assigned in the other one and behind; the value of a subscript
    cannot be used. *)
Definition branch_module : list (stmt nat) :=
  [If (Const 1 5) [Assign 2 "a" (Operation 3 "abs" [Const 4 5])] [Expr (Operation 5 "abs" [Name 6 "a"])];
   Expr (Subscript 7 (Name 8 "a") (Name 9 "a"))].
Definition selection_module : list (stmt nat) := [Expr (Operation 1 "abs" [Subscript 2 (Const 3 5) (Const 4 5)])].
Example C57_control_flow_case :
  unannotated (nodes branch_module) annot_initial /\ annot_ready annot_initial /\
  let v s m := match annotate_module library case_type m s with Some s' => validate_module s' m | None => Failed end in
  v annot_initial branch_module = Accepted /\
  v annot_initial selection_module = Rejected (WrongTypeOfArgument "abs" 1 1) /\
  v annot_initial [Assign 1 "a" (Subscript 2 (Const 3 5) (Const 4 5))] = Failed /\
  v annot_initial [Expr (Subscript 7 (Const 8 5) (Name 9 "a"))] = Rejected (UndefinedIdentifier "a" 9).
Proof.
  split; [|vm_compute; repeat split]. split; [|intros; cbn; auto].
  vm_compute. repeat (constructor; [cbn; intuition discriminate|]). constructor.
Qed.

(** ** C58 *)

(** If the operations keep their promises and the sources are good, execution of a module without
    control flow, subscripts and attributes by an interpreter that is in sync ends in one of two
    ways.  If the module has a problem, the first one is reported, and nothing is executed.
    Otherwise it is executed to the end, and the interpreter is in sync again, so every name whose
    type is known has a value of that type. *)
Theorem C58_execute (A : Type) (operations : string -> option aop) (const_type : A -> expression_type)
  (exec_operations : string -> option (op A)) (is_of : A -> expression_type -> Prop)
  (m : list (stmt A)) (l : list (source A)) (names : list string) (i : interp A) :
  sound operations const_type exec_operations is_of ->
  in_sync is_of i -> good_sources is_of l i ->
  Forall simple_stmt m -> unannotated (nodes m) (annotator i) ->
  match problem_of operations const_type (@rev _) (with_sources l (known_types (annotator i))) m with
  | Some p =>
      exists i', call_execute operations const_type exec_operations m l names i = Error p i' /\ back_end i' = back_end i
  | None =>
      exists i', call_execute operations const_type exec_operations m l names i = Done i' /\ in_sync is_of i' /\
        (forall v, ~ In v (nodes m) ->
           types_of (annotator i') v = types_of (annotator i) v /\ operation_of (annotator i') v = operation_of (annotator i) v) /\
        (forall x, input_names (back_end i') x = scope_find (source_values l) x)
  end.
Proof.
  intros SND (R & AR & SY) (ND & IS & OLD) S U. set (n := with_sources l (known_types (annotator i))).
  assert (MF : map fst (source_types l) = map (fun p => fst (fst p)) l) by (unfold source_types; rewrite map_map; auto).
  assert (MV : map fst (source_values l) = map (fun p => fst (fst p)) l) by (unfold source_values; rewrite map_map; auto).
  destruct (add_sources (source_types l) (annotator i) AR) as (s1 & E1 & R1 & T1 & O1 & K1); [rewrite MF; auto|].
  assert (U1 : unannotated (nodes m) s1) by (destruct U as [U1 U2]; split; auto; rewrite T1, O1; auto).
  assert (NT : forall x, name_type x s1 = n x) by (intros x; apply K1).
  destruct (types_total operations const_type m (fun f o F ts => proj1 (proj2 (proj2 SND f o F)) ts) S n) as [[n' us] TA].
  pose proof (stmts_annotated operations const_type m S n s1 R1 U1 NT) as H. rewrite TA in H.
  destruct H as (s2 & E2 & R2 & N2 & _ & [A1 A2] & OP).
  pose proof (module_types_nodes operations const_type m S _ _ TA) as MN.
  pose proof (validate_stmts_spec operations const_type s2 m S _ _ TA A2 OP) as V.
  unfold call_execute, call_validate, call_annotate. rewrite E1, E2. cbn [annotator back_end]. rewrite V.
  destruct (problem_of operations const_type (@rev _) n m) as [p|] eqn:P; cbn [verdict_of].
  { eexists; split; reflexivity. }
  destruct (C48_session A (source_values l) (back_end i) R) as (b1 & EB & RB & IB & BB & _); [rewrite MV; auto|].
  cbn [annotator back_end]. rewrite EB.
  assert (KN : forall x, et_defined (n x) = true -> exists v, known (bound_names b1) (input_names b1) x = Some v /\ is_of v (n x)).
  { intros x D. unfold known. rewrite BB, IB. rewrite MV. subst n. unfold with_sources in *.
    destruct (in_dec string_dec x (map (fun p => fst (fst p)) l)) as [I|I].
    - clear - I IS ND. induction IS as [|[[y t] v] l Y _ IH]; [destruct I|]. cbn in *. destruct (String.eqb_spec y x) as [->|NE]; [eauto|].
      inversion ND; subst. destruct I as [I|I]; [congruence|]. apply IH; auto.
    - assert (F1 : scope_find (source_types l) x = None).
      { destruct (scope_find (source_types l) x) eqn:F; auto. exfalso. apply I. rewrite <- MF. apply find_in. congruence. }
      rewrite F1 in *. destruct (SY x D) as (v & KV & T). unfold known in KV. destruct (bound_names (back_end i) x) as [w|] eqn:B; [exists v; auto|].
      exfalso. apply I. apply OLD; congruence. }
  destruct (sound_stmts operations const_type exec_operations is_of SND (input_names b1) m S n (bound_names b1) KN P)
    as (b' & rs & ts & n2 & us2 & M & TA2 & KF).
  rewrite TA in TA2. injection TA2 as <- <-.
  assert (RB' : ready (set_data_sync_symbols names b1)) by exact RB.
  destruct (C48_module A exec_operations m (set_data_sync_symbols names b1) b' rs ts RB' M) as (b2 & new & EX & _ & _ & _ & _ & B1 & B2 & I2 & RB2).
  rewrite EX. eexists. split; [reflexivity|]. cbn [annotator back_end]. split; [|split].
  - split; auto. split; auto. cbn [annotator back_end]. intros x D. change (known_types s2 x) with (name_type x s2) in *. rewrite N2 in *.
    destruct (KF x D) as (v & KV & T). exists v. split; auto. unfold known in *. destruct (b' x) as [w|] eqn:B.
    + rewrite (B1 x w B). auto.
    + rewrite (B2 x B). change (input_names (set_data_sync_symbols names b1)) with (input_names b1) in *.
      destruct (in_dec string_dec x new); [rewrite KV; auto|]. rewrite I2. auto.
  - intros v I. rewrite <- T1, <- O1. apply A1. rewrite MN. auto.
  - intros x. rewrite I2. apply IB.
Qed.
Print Assumptions C58_execute.

(** A new interpreter is in sync. *)
Theorem C58_initial (A : Type) (is_of : A -> expression_type -> Prop) : in_sync is_of (@interp_initial A).
Proof. split; [split; reflexivity|]. split; [reflexivity|]. intros x D. discriminate. Qed.
Print Assumptions C58_initial.

(** So, whatever modules without problems are executed one after the other, with sources for the
    same names in each call, no assertion fails. *)
Fixpoint valid_calls {A} (operations : string -> option aop) (const_type : A -> expression_type) (n : typing)
  (calls : list (list (stmt A) * list (source A))) : Prop :=
  match calls with
  | [] => True
  | (m, l) :: calls' =>
      problem_of operations const_type (@rev _) (with_sources l n) m = None /\
      match types_after operations const_type (@rev _) (with_sources l n) m with
      | Some (n', _) => valid_calls operations const_type n' calls'
      | None => True
      end
  end.
Definition run_calls {A} (operations : string -> option aop) (const_type : A -> expression_type)
  (exec_operations : string -> option (op A)) (calls : list (list (stmt A) * list (source A))) (i : interp A) : outcome A :=
  fold_left (fun o c => match o with Done i => call_execute operations const_type exec_operations (fst c) (snd c) [] i | _ => o end) calls (Done i).

Lemma problem_ext {A} (operations : string -> option aop) (const_type : A -> expression_type) arrange (m : list (stmt A)) : forall n n',
  (forall x, n x = n' x) -> problem_of operations const_type arrange n m = problem_of operations const_type arrange n' m /\
  match types_after operations const_type arrange n m, types_after operations const_type arrange n' m with
  | Some (k, us), Some (k', us') => (forall x, k x = k' x) /\ us = us'
  | None, None => True
  | _, _ => False
  end.
Proof.
  assert (TE : forall n n', (forall x, n x = n' x) -> forall e, type_in operations const_type arrange n e = type_in operations const_type arrange n' e).
  { intros n n' H e. induction e as [i x|i v|i f args IH|i e sel IHe IHs|i e mm IHe] using expr_induction; cbn; auto. { rewrite H; auto. }
    assert (M : map (type_in operations const_type arrange n) args = map (type_in operations const_type arrange n') args).
    { induction IH as [|a args Ha _ IH]; cbn; auto. rewrite Ha, IH; auto. } rewrite M. auto. }
  assert (PE : forall n n', (forall x, n x = n' x) -> forall e, problem_in operations const_type arrange n e = problem_in operations const_type arrange n' e).
  { intros n n' H e. induction e as [i x|i v|i f args IH|i e sel IHe IHs|i e mm IHe] using expr_induction; cbn [problem_in]; auto. { rewrite H; auto. }
    assert (M : map (problem_in operations const_type arrange n) args = map (problem_in operations const_type arrange n') args).
    { induction IH as [|a args Ha _ IH]; cbn; auto. rewrite Ha, IH; auto. } rewrite M, (map_ext _ _ (TE n n' H)). auto. }
  induction m as [|[v x e|e|c t f|c t f] m IH]; intros n n' H; cbn [problem_of types_after]; auto; rewrite (PE n n' H), (TE n n' H).
  - destruct (type_in operations const_type arrange n' e) as [t|]; [|auto].
    destruct (IH (set_type x t n) (set_type x t n')) as [I1 I2]. { intros y. unfold set_type. destruct (String.eqb y x); auto. }
    rewrite I1. split; auto.
  - destruct (IH n n' H) as [I1 I2]. rewrite I1. split; auto. destruct (type_in operations const_type arrange n' e); auto.
    destruct (types_after operations const_type arrange n m) as [[k us]|], (types_after operations const_type arrange n' m) as [[k' us']|]; auto.
    destruct I2 as [I2 ->]. auto.
Qed.

Theorem C58_history (A : Type) (operations : string -> option aop) (const_type : A -> expression_type)
  (exec_operations : string -> option (op A)) (is_of : A -> expression_type -> Prop)
  (sources : list string) (calls : list (list (stmt A) * list (source A))) :
  sound operations const_type exec_operations is_of ->
  NoDup sources ->
  Forall (fun c => Forall simple_stmt (fst c) /\ map (fun p => fst (fst p)) (snd c) = sources /\
                   Forall (fun p => is_of (snd p) (snd (fst p))) (snd c)) calls ->
  NoDup (flat_map (fun c => nodes (fst c)) calls) ->
  valid_calls operations const_type (fun _ => default_expression_type) calls ->
  exists i, run_calls operations const_type exec_operations calls interp_initial = Done i /\ in_sync is_of i.
Proof.
  intros SND NS F N V. unfold run_calls.
  assert (G : forall calls (n : typing) (i : interp A), Forall (fun c => Forall simple_stmt (fst c) /\ map (fun p => fst (fst p)) (snd c) = sources /\
                   Forall (fun p => is_of (snd p) (snd (fst p))) (snd c)) calls ->
    NoDup (flat_map (fun c => nodes (fst c)) calls) -> valid_calls operations const_type n calls ->
    (forall x, known_types (annotator i) x = n x) -> in_sync is_of i ->
    (forall x, input_names (back_end i) x <> None -> In x sources) ->
    (forall v, In v (flat_map (fun c => nodes (fst c)) calls) -> types_of (annotator i) v = [] /\ operation_of (annotator i) v = None) ->
    exists i', fold_left (fun o c => match o with Done i => call_execute operations const_type exec_operations (fst c) (snd c) [] i | _ => o end) calls (Done i) = Done i'
      /\ in_sync is_of i').
  { clear calls F N V. induction calls as [|[m l] calls IH]; intros n i F N V K SY IN FR; [exists i; auto|].
    inversion F as [|? ? (S & L & T) F']; subst. cbn [fst snd] in *. cbn [flat_map] in N. cbn [fold_left]. cbn [valid_calls] in V. destruct V as [V1 V2].
    assert (U : unannotated (nodes m) (annotator i)). { split; [apply (nodup_left _ _ N)|]. intros v I. apply FR. cbn. apply in_app_iff; auto. }
    assert (GS : good_sources is_of l i). { split; auto. }
    pose proof (C58_execute A operations const_type exec_operations is_of m l [] i SND SY GS S U) as H.
    assert (KW : forall x, with_sources l (known_types (annotator i)) x = with_sources l n x) by (intros x; unfold with_sources; rewrite K; auto).
    destruct (problem_ext operations const_type (@rev _) m _ _ KW) as [PX TX]. rewrite PX, V1 in H.
    destruct H as (i1 & E1 & SY1 & O1 & I1). cbn [fst snd]. rewrite E1.
    destruct SY as (R & AR & SY).
    assert (TT : exists n' us, types_after operations const_type (@rev _) (with_sources l n) m = Some (n', us) /\ forall x, known_types (annotator i1) x = n' x).
    { assert (MF : map fst (source_types l) = map (fun p => fst (fst p)) l) by (unfold source_types; rewrite map_map; auto).
      destruct (add_sources (source_types l) (annotator i) AR) as (s1 & E & R1 & T1 & OO1 & K1); [rewrite MF; auto|].
      assert (U1 : unannotated (nodes m) s1) by (destruct U as [U1 U2]; split; auto; rewrite T1, OO1; auto).
      assert (NT : forall x, name_type x s1 = with_sources l (known_types (annotator i)) x) by (intros x; apply K1).
      pose proof (stmts_annotated operations const_type m S (with_sources l (known_types (annotator i))) s1 R1 U1 NT) as H.
      unfold call_execute, call_validate, call_annotate in E1. rewrite E in E1.
      destruct (types_after operations const_type (@rev _) (with_sources l (known_types (annotator i))) m) as [[n' us]|];
        destruct (types_after operations const_type (@rev _) (with_sources l n) m) as [[n'' us']|]; try contradiction.
      - destruct H as (s2 & E2 & _ & N2 & _). destruct TX as [TX ->]. exists n'', us'. split; auto. intros x. rewrite E2 in E1. cbn [annotator back_end] in E1.
        destruct (validate_module s2 m); try discriminate. destruct (set_data_source_symbols _ _); try discriminate.
        destruct (exec_module _ _ _); try discriminate. injection E1 as <-. cbn [annotator]. rewrite <- TX. apply N2.
      - rewrite H in E1. discriminate. }
    destruct TT as (n' & us & TA & KN). rewrite TA in V2.
    apply (IH n' i1 F'); auto.
    - clear - N. cbn [fst] in N. revert N. generalize (nodes m). intros vs. induction vs as [|v vs IHv]; intros N; [exact N|]. inversion N; subst. auto.
    - intros x X. rewrite I1 in X. apply find_in in X. unfold source_values in X. rewrite map_map in X. exact X.
    - intros v I. destruct (O1 v) as [-> ->].
      + intros J. apply (nodup_disjoint _ _ _ N J I).
      + apply FR. cbn. apply in_app_iff; auto. }
  apply (G calls (fun _ => default_expression_type)); auto.
  - apply C58_initial.
  - intros x X. exfalso. apply X. reflexivity.
Qed.
Print Assumptions C58_history.

(** Constants with their value types, and two operations that keep their promises: [abs] of the
    library, and [log], which returns nothing. *)
Definition typed_type (v : value_type * Z) : expression_type :=
  {| et_data := dt_flags DT_CONSTANT; et_value := vt_flags (fst v) |}.
Definition sound_operations (f : string) : option aop :=
  if String.eqb f "abs" then library "abs"
  else if String.eqb f "log" then
    let o := {| op_parameters := [[number_type]; [string_type]]; op_results := [] |} in
    Some {| signature := o; result_type := default_result_type o |}
  else None.
Definition sound_execution (f : string) : option (op (value_type * Z)) :=
  if String.eqb f "abs" then
    Some {| arity := 1; execute := fun vs => match vs with [(t, v)] => Some [(t, Z.abs v)] | _ => None end |}
  else if String.eqb f "log" then Some {| arity := 2; execute := fun _ => Some [] |}
  else None.
Definition sound_calls : list (list (stmt (value_type * Z)) * list (source (value_type * Z))) :=
  let a := ("a", typed_type (VT_INT32, 0%Z), (VT_INT32, (-7)%Z)) in
  [([Assign 1 "b" (Operation 2 "abs" [Name 3 "a"])], [a]);
   ([Assign 4 "a" (Operation 5 "abs" [Name 6 "a"]);
     Expr (Operation 7 "log" [Name 8 "b"; Const 9 (VT_STRING, 0%Z)]); Expr (Name 10 "a")], [a])].
Example C58_case :
  sound sound_operations typed_type sound_execution (fun v t => t = typed_type v) /\
  Forall (fun c => Forall simple_stmt (fst c) /\ map (fun p => fst (fst p)) (snd c) = ["a"] /\
                   Forall (fun p => snd (fst p) = typed_type (snd p)) (snd c)) sound_calls /\
  NoDup (flat_map (fun c => nodes (fst c)) sound_calls) /\
  valid_calls sound_operations typed_type (fun _ => default_expression_type) sound_calls /\
  match run_calls sound_operations typed_type sound_execution sound_calls interp_initial with
  | Done i => stack (back_end i) = [(VT_INT32, 7%Z)] /\ bound_names (back_end i) "b" = Some (VT_INT32, 7%Z)
  | _ => False
  end.
Proof.
  split; [split; [auto|]|].
  - intros f o F. unfold sound_operations in F. unfold sound_operation, sound_execution.
    destruct (String.eqb f "abs").
    { split; [|split].
      - apply (C49_library "abs" o (map (fun _ => default_expression_type) (op_parameters (signature o))) F (map_length _ _)).
      - intros ts L. apply (C49_library "abs" o ts F L).
      - injection F as <-. eexists. split; [reflexivity|]. split; [reflexivity|]. intros vs ts t V P R.
        cbn [op_parameters signature standard_aop op_abs] in P. inversion P as [|? t0 ? ts0 P0 P1]; subst. inversion P1; subst.
        inversion V as [|v ? vs0 ? V0 V1]; subst. inversion V1; subst. destruct v as [vt z].
        destruct vt; try (vm_compute in P0; discriminate); vm_compute in R; injection R as <-;
          (match goal with |- if ?b then _ else _ => let b' := eval vm_compute in b in change b with b' end; cbv iota; eexists; split; reflexivity). }
    destruct (String.eqb f "log"); [|discriminate]. injection F as <-. split; [intros ts _; reflexivity|]. split; [intros; eexists; reflexivity|].
    eexists. split; [reflexivity|]. split; [reflexivity|]. intros vs ts t _ _ R. injection R as <-. reflexivity.
  - split; [repeat constructor|]. split; [cbn; repeat constructor; cbn; lia|]. split; vm_compute; repeat split; reflexivity.
Qed.

(** ** What is accepted but cannot be executed *)

Definition const_int64 (v : number) : expression_type := fst v.
Definition five : number := (int64_constant, 5%Z).

(** The interpreter gets out of sync when a module is rejected: the names it assigns before the
    problem have a type from then on, but no value.  [a = 5; b = c] is rejected, as it should
    be, but then [d = a] is accepted, and an assertion fails. *)
Theorem C58_rejected_refuted :
  exists i, call_execute library const_int64 library_execution [Assign 1 "a" (Const 2 five); Assign 3 "b" (Name 4 "c")] [] [] interp_initial
      = Error (UndefinedIdentifier "c" 4) i /\
    call_execute library const_int64 library_execution [Assign 5 "d" (Name 6 "a")] [] [] i = Broken /\
    call_execute library const_int64 library_execution [Assign 5 "d" (Name 6 "a")] [] [] interp_initial
      = Error (UndefinedIdentifier "a" 6)
          match call_execute library const_int64 library_execution [Assign 5 "d" (Name 6 "a")] [] [] interp_initial with
          | Error _ j => j | _ => interp_initial end.
Proof.
  destruct (call_execute library const_int64 library_execution [Assign 1 "a" (Const 2 five); Assign 3 "b" (Name 4 "c")] [] [] interp_initial) as [i|p i|] eqn:E;
    vm_compute in E; try discriminate. injection E as <- <-. eexists. split; [reflexivity|]. split; vm_compute; reflexivity.
Qed.
Print Assumptions C58_rejected_refuted.

(** So it does when a module is only validated. *)
Theorem C58_validated_refuted :
  exists i, call_validate library const_int64 [Assign 1 "a" (Const 2 five)] [] interp_initial = Done i /\
    call_execute library const_int64 library_execution [Assign 3 "d" (Name 4 "a")] [] [] i = Broken.
Proof.
  destruct (call_validate library const_int64 [Assign 1 "a" (Const 2 five)] [] interp_initial) as [i|p i|] eqn:E; vm_compute in E; try discriminate.
  injection E as <-. eexists. split; [reflexivity|]. vm_compute; reflexivity.
Qed.
Print Assumptions C58_validated_refuted.

(** So it does when a source that was not read is not passed in again. *)
Theorem C58_sources_refuted :
  exists i, call_execute library const_int64 library_execution [Assign 1 "b" (Const 2 five)] [("a", int64_constant, five)] [] interp_initial = Done i /\
    call_execute library const_int64 library_execution [Assign 3 "d" (Name 4 "a")] [] [] i = Broken.
Proof.
  destruct (call_execute library const_int64 library_execution [Assign 1 "b" (Const 2 five)] [("a", int64_constant, five)] [] interp_initial) as [i|p i|] eqn:E;
    vm_compute in E; try discriminate.
  injection E as <-. eexists. split; [reflexivity|]. vm_compute; reflexivity.
Qed.
Print Assumptions C58_sources_refuted.

(** A name that is only assigned in a branch is accepted after it, but branches are not executed. *)
Theorem C58_branch_refuted :
  call_execute library const_int64 library_execution
    [If (Const 1 five) [Assign 2 "a" (Const 3 five)] []; Assign 4 "d" (Name 5 "a")] [] [] interp_initial = Broken.
Proof. vm_compute. reflexivity. Qed.
Print Assumptions C58_branch_refuted.

(** [add] and [int32] are accepted, but an assertion fails when their result is used. *)
Theorem C58_library_refuted :
  (exists i, call_validate library const_int64 [Assign 1 "d" (Operation 2 "add" [Const 3 five; Const 4 five])] [] interp_initial = Done i) /\
  call_execute library const_int64 library_execution [Assign 1 "d" (Operation 2 "add" [Const 3 five; Const 4 five])] [] [] interp_initial = Broken /\
  (exists i, call_validate library const_int64 [Assign 1 "d" (Operation 2 "int32" [Const 3 five])] [] interp_initial = Done i) /\
  call_execute library const_int64 library_execution [Assign 1 "d" (Operation 2 "int32" [Const 3 five])] [] [] interp_initial = Broken.
Proof.
  split; [|split; [vm_compute; reflexivity|split; [|vm_compute; reflexivity]]].
  - destruct (call_validate library const_int64 [Assign 1 "d" (Operation 2 "add" [Const 3 five; Const 4 five])] [] interp_initial) as [i|p i|] eqn:E; [eauto| |]; vm_compute in E; discriminate.
  - destruct (call_validate library const_int64 [Assign 1 "d" (Operation 2 "int32" [Const 3 five])] [] interp_initial) as [i|p i|] eqn:E; [eauto| |]; vm_compute in E; discriminate.
Qed.
Print Assumptions C58_library_refuted.
