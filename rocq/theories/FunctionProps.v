(** * Properties of scripts with functions *)
From Coq Require Import String List Bool Arith ZArith.
From Verif Require Import AstModel SymbolModel FlagModel IdentifyModel AnnotateModel AnnotateSpec IoModel ExecModel ExecSpec
  InterpretModel InterpretSpec InterpretProps ThreadModel FunctionModel FunctionSpec FunctionProofs.
Import ListNotations.

(** ** C94: functions in scripts

    A script with definitions of functions is annotated, validated and executed as if the parameters
    of each definition were expression statements, followed by the statements of its body; a return
    statement is its expression.  So are its names linked. *)
Theorem C94_inlined (A : Type) (operations : string -> option aop) (const_type : A -> expression_type)
  (exec_operations : string -> option (op A)) (m : list (fstmt A)) :
  (forall s, fidentify_module m s = identify_module (inline m) s) /\
  fio_module m = io_module (inline m) /\
  (forall l i, fcall_annotate operations const_type m l i = call_annotate operations const_type (inline m) l i) /\
  (forall l i, fcall_validate operations const_type m l i = call_validate operations const_type (inline m) l i) /\
  (forall l names i, fcall_execute operations const_type exec_operations m l names i =
     call_execute operations const_type exec_operations (inline m) l names i).
Proof.
  split; [intros; symmetry; apply identify_inline|]. split; [symmetry; apply io_inline|]. split; [intros; symmetry; apply call_annotate_inline|].
  split; [intros; symmetry; apply call_validate_inline|]. intros; symmetry; apply call_execute_inline.
Qed.
Print Assumptions C94_inlined.

(** A script without functions is treated as by the models without functions. *)
Theorem C94_without (A : Type) (operations : string -> option aop) (const_type : A -> expression_type)
  (exec_operations : string -> option (op A)) (m : list (stmt A)) l names i :
  fcall_execute operations const_type exec_operations (map plain_script m) l names i =
  call_execute operations const_type exec_operations m l names i.
Proof. rewrite <- call_execute_inline, inline_plains. reflexivity. Qed.
Print Assumptions C94_without.

(** The name of a function does not matter: no call is a call of it. *)
Theorem C94_names_refuted (A : Type) (operations : string -> option aop) (const_type : A -> expression_type)
  (exec_operations : string -> option (op A)) (r : string -> string) (m : list (fstmt A)) l names i :
  fcall_validate operations const_type (map (rename r) m) l i = fcall_validate operations const_type m l i /\
  fcall_execute operations const_type exec_operations (map (rename r) m) l names i =
  fcall_execute operations const_type exec_operations m l names i.
Proof.
  split; [rewrite <- !call_validate_inline, inline_renames; reflexivity|]. rewrite <- !call_execute_inline, inline_renames. reflexivity.
Qed.
Print Assumptions C94_names_refuted.

(** Whatever it defines, a script that calls something else than an operation is not accepted. *)
Theorem C94_calls_refuted (A : Type) (operations : string -> option aop) (const_type : A -> expression_type)
  (exec_operations : string -> option (op A)) (f : string) (m : list (fstmt A)) (l : list (source A)) (names : list string) (i : interp A) :
  (forall g o, operations g = Some o -> forall ts, length ts = length (op_parameters (signature o)) -> exists t, result_type o ts = Some t) ->
  annot_ready (annotator i) -> NoDup (map (fun p => fst (fst p)) l) -> unannotated (nodes (inline m)) (annotator i) ->
  Exists (calls f) m -> operations f = None ->
  (forall i', fcall_validate operations const_type m l i <> Done i') /\
  (forall i', fcall_execute operations const_type exec_operations m l names i <> Done i').
Proof.
  intros T R N U C F.
  assert (V : forall i', fcall_validate operations const_type m l i <> Done i').
  { intros i' E. destruct (accepted_valid operations const_type m l i i' T R N U E) as (n & _ & V).
    apply (valid_calls_stmts operations const_type exec_operations f _ n V); auto. apply (calls_straight_all operations exec_operations f m); auto.
    apply Forall_forall. intros t _. apply (calls_straight operations exec_operations). }
  split; auto. intros i' E. unfold fcall_execute in E. destruct (fcall_validate operations const_type m l i) as [j|p j|] eqn:E1; try discriminate.
  apply (V j). reflexivity.
Qed.
Print Assumptions C94_calls_refuted.

(** A definition is only accepted if its parameters have types already: each is a data source, is
    known from earlier scripts, or is assigned to before the definition. *)
Theorem C94_parameters_refuted (A : Type) (operations : string -> option aop) (const_type : A -> expression_type)
  (f : string) (ps : list (nat * string)) (body before after : list (fstmt A)) (l : list (source A)) (i i' : interp A) :
  let m := before ++ FDefine f ps body :: after in
  (forall g o, operations g = Some o -> forall ts, length ts = length (op_parameters (signature o)) -> exists t, result_type o ts = Some t) ->
  annot_ready (annotator i) -> NoDup (map (fun p => fst (fst p)) l) -> unannotated (nodes (inline m)) (annotator i) ->
  fcall_validate operations const_type m l i = Done i' ->
  forall v x, In (v, x) ps ->
    et_defined (with_sources l (known_types (annotator i)) x) = true \/ Exists (assigns x) before.
Proof.
  intros m T R N U E v x I. destruct (accepted_valid operations const_type m l i i' T R N U E) as (n & K & V).
  unfold m, inline in V. rewrite flat_map_app in V. cbn [flat_map inline_stmt] in V. rewrite straight_app in V.
  destruct (valid_split operations const_type _ _ n V) as (n' & V' & K'). rewrite <- app_assoc in V'.
  pose proof (valid_parameters operations const_type n' ps _ V' (v, x) I) as D. cbn [snd] in D.
  destruct (K' x) as [K1|K1].
  - left. rewrite K1, K in D. exact D.
  - right. apply (assigned_straight_all operations (fun _ => None) x before); auto. apply Forall_forall. intros t _. apply (assigned_straight operations (fun _ => None)).
Qed.
Print Assumptions C94_parameters_refuted.

(** The body of a function is executed where it is defined: after the script, every name that is
    assigned to in a body is bound, whether or not the function is called, and whether or not the
    assignment is after a return statement. *)
Theorem C94_bodies_refuted (A : Type) (operations : string -> option aop) (const_type : A -> expression_type)
  (exec_operations : string -> option (op A)) (m : list (fstmt A)) (l : list (source A)) (names : list string) (i i' : interp A) :
  ready (back_end i) -> NoDup (map (fun p => fst (fst p)) l) ->
  fcall_execute operations const_type exec_operations m l names i = Done i' ->
  forall x, Exists (assigns_here x) m -> bound_names (back_end i') x <> None.
Proof.
  intros R ND E x I. unfold fcall_execute in E. destruct (fcall_validate operations const_type m l i) as [j|p j|] eqn:EV; try discriminate.
  assert (BJ : back_end j = back_end i).
  { unfold fcall_validate, fcall_annotate in EV. destruct (add_global_symbols _ _); [|discriminate].
    destruct (visits (fannotate_stmt operations const_type) m a) as [a'|]; [|discriminate]. cbn [annotator] in EV.
    destruct (fvalidate_module a' m); try discriminate. injection EV as <-. reflexivity. }
  rewrite BJ in E.
  assert (MV : map fst (source_values l) = map (fun p => fst (fst p)) l) by (unfold source_values; rewrite map_map; auto).
  destruct (ExecProps.C48_session A (source_values l) (back_end i) R) as (b1 & EB & RB & _); [rewrite MV; auto|].
  rewrite EB in E. unfold fexec_module in E. destruct (fio_module m) as [r|]; [|discriminate].
  destruct (visits (fexec_stmt exec_operations) m _) as [s'|] eqn:EX; [|discriminate]. injection E as <-. cbn [back_end].
  apply (fexec_all_keeps exec_operations m _ s' EX RB x I).
Qed.
Print Assumptions C94_bodies_refuted.

(** Scripts. *)
Local Open Scope string_scope.
Definition five_ : number := (int64_constant, 5%Z).
Definition two_ : number := (int64_constant, (-2)%Z).
Definition const_type_ (v : number) : expression_type := fst v.
Notation execute_script m := (fcall_execute library const_type_ library_execution m [] [] interp_initial).
Definition bound_after (o : outcome number) (x : string) : option (option number) :=
  match o with Done i => Some (value (symbols (back_end i)) x) | _ => None end.
Definition problem_after {A} (o : outcome A) : option problem := match o with Error p _ => Some p | _ => None end.

(** [def f(): a = 5; return a; a = -2], which is not called: [a] is -2, and the value returned is left
    on the stack. *)
Definition uncalled : list (fstmt number) :=
  [FDefine "f" [] [FAssign 1 "a" (Const 2 five_); FReturn (Some (Name 3 "a")); FAssign 4 "a" (Const 5 two_)]].
Theorem C94_uncalled_refuted :
  bound_after (execute_script uncalled) "a" = Some (Some two_) /\
  match execute_script uncalled with Done i => stack (back_end i) = [five_] | _ => False end.
Proof. split; vm_compute; reflexivity. Qed.
Print Assumptions C94_uncalled_refuted.

(** [def f(): return 5; b = f()]; [def f(x): return x]; [def abs(): return 5; b = abs(-2)], which calls
    the operation; [x = 5; def f(x): y = x], in which the parameter is the [x] of the script. *)
Theorem C94_scripts_refuted :
  problem_after (execute_script [FDefine "f" [] [FReturn (Some (Const 1 five_))]; FAssign 2 "b" (Operation 3 "f" [])])
    = Some (UndefinedOperation "f" 3) /\
  problem_after (execute_script [FDefine "f" [(1, "x")] [FReturn (Some (Name 2 "x"))]]) = Some (UndefinedIdentifier "x" 1) /\
  bound_after (execute_script [FDefine "abs" [] [FReturn (Some (Const 1 five_))]; FAssign 2 "b" (Operation 3 "abs" [Const 4 two_])]) "b"
    = Some (Some (int64_constant, 2%Z)) /\
  bound_after (execute_script [FAssign 1 "x" (Const 2 five_); FDefine "f" [(3, "x")] [FAssign 4 "y" (Name 5 "x")]]) "y" = Some (Some five_).
Proof. repeat split; vm_compute; reflexivity. Qed.
Print Assumptions C94_scripts_refuted.

(** These scripts can be threaded. *)
Example C94_threaded :
  thread_module (Module_ 10 (Block 11 12 [Definition_ 13 "f" [] (Block 14 15
     [Assignment 16 (Leaf 1) (Leaf 2); Return 17 (Some (Leaf 3)); Assignment 18 (Leaf 4) (Leaf 5)])])) [] <> None /\
  thread_module (Module_ 10 (Block 11 12 [Definition_ 13 "f" [] (Block 14 15 [Return 17 (Some (Leaf 1))]);
     Assignment 18 (Leaf 2) (Call 3 "f" [])])) [] <> None /\
  thread_module (Module_ 10 (Block 11 12 [Definition_ 13 "f" [1] (Block 14 15 [Return 17 (Some (Leaf 2))])])) [] <> None.
Proof. repeat split; vm_compute; discriminate. Qed.

(** The hypotheses of the theorems above can be met. *)
Example C94_case :
  let m := [FDefine "f" [] [FReturn (Some (Const 1 five_))]; FAssign 2 "b" (Operation 3 "f" [])] in
  Exists (calls "f") m /\ library "f" = None /\ annot_ready (annotator (@interp_initial number)) /\
  unannotated (nodes (inline m)) (annotator (@interp_initial number)) /\
  ready (back_end (@interp_initial number)) /\ Exists (assigns_here "a") uncalled /\
  (exists i, fcall_validate library const_type_ [FAssign 1 "x" (Const 2 five_); FDefine "f" [(3, "x")] [FAssign 4 "y" (Name 5 "x")]] [] interp_initial = Done i).
Proof.
  split; [apply Exists_cons_tl; constructor; left; reflexivity|]. split; [reflexivity|]. split; [reflexivity|]. split.
  - split; [|intros; split; reflexivity]. cbn. repeat constructor; cbn; intuition discriminate.
  - split; [split; reflexivity|]. split; [constructor; left; reflexivity|].
    destruct (fcall_validate library const_type_ [FAssign 1 "x" (Const 2 five_); FDefine "f" [(3, "x")] [FAssign 4 "y" (Name 5 "x")]] [] interp_initial) as [i|p i|] eqn:E;
      [exists i; reflexivity|vm_compute in E; discriminate E|vm_compute in E; discriminate E].
Qed.
