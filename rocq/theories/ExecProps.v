(** * C48: the execution of modules; C50: what is written to the data syncs *)
From Coq Require Import String List Bool Arith Lia.
From Verif Require Import AstModel SymbolModel SymbolProofs IoModel IoSpec IoProofs ExecModel ExecSpec ExecProofs IoProps.
Import ListNotations.
Open Scope string_scope.
Open Scope list_scope.

(** ** C48 *)

(** A module that has a meaning is executed according to it: every name the module binds gets its
    value, the values of the expression statements are left on the stack, the inputs that are
    used while they are not bound are read, once each, and stay bound to the value read. *)
Theorem C48_module (A : Type) (operations : string -> option (op A)) (m : list (stmt A)) (s : exec A) b rs ts :
  ready s ->
  meaning operations (input_names s) (bound_names s) m = Some (b, rs, ts) ->
  exists s' new, exec_module operations m s = Some s' /\
    stack s' = rev rs ++ stack s /\
    reads s' = reads s ++ new /\ NoDup new /\
    (forall x, In x new <-> needs (fun y => bound_names s y <> None) m x) /\
    (forall x v, b x = Some v -> bound_names s' x = Some v) /\
    (forall x, b x = None -> bound_names s' x = if in_dec string_dec x new then input_names s x else None) /\
    (forall x, input_names s' x = input_names s x) /\
    ready s'.
Proof.
  intros R M. destruct (io_module_counted m) as (r & E & _ & _). unfold exec_module. rewrite E.
  assert (R' : ready (set_outs s (outputs r))) by exact R.
  destruct (exec_stmts_run operations (input_names s) m _ _ _ _ [] (set_outs s (outputs r)) M (stands_start _ R'))
    as (s' & l & E' & ST & I & SK & RD & _). exists s', l. split; auto. split; auto. split; auto.
  destruct ST as [R1 I1 N1 K1 B1]. cbn [app] in *. split; auto. split.
  - intros x. rewrite I. cbn. tauto.
  - split; [intros x v X; rewrite B1, X; auto|]. split; [intros x X; rewrite B1, X; auto|]. split; auto.
Qed.
Print Assumptions C48_module.

(** If an operation that succeeds returns one result, a module without control flow and
    subscripts fails exactly if it has no meaning. *)
Theorem C48_failure (A : Type) (operations : string -> option (op A)) (m : list (stmt A)) (s : exec A) :
  one_result operations -> Forall (plain_stmt operations) m -> ready s ->
  exec_module operations m s = None <-> meaning operations (input_names s) (bound_names s) m = None.
Proof.
  intros OR P R. split.
  - destruct (meaning operations (input_names s) (bound_names s) m) as [[[b rs] ts]|] eqn:M; auto.
    destruct (C48_module A operations m s b rs ts R M) as (s' & new & E & _). congruence.
  - intros M. unfold exec_module. destruct (io_module m) as [r|]; auto.
    apply (exec_stmts_fail operations OR (input_names s) m P (bound_names s) [] (set_outs s (outputs r)));
      auto. apply (stands_start (set_outs s (outputs r))). exact R.
Qed.
Print Assumptions C48_failure.

(** New data sources replace all old ones; the names bound to something else are forgotten if
    they have a new source, and kept otherwise. *)
Theorem C48_session (A : Type) (pairs : scope A) (s : exec A) :
  ready s -> NoDup (map fst pairs) ->
  exists s', set_data_source_symbols pairs s = Some s' /\ ready s' /\
    (forall x, input_names s' x = scope_find pairs x) /\
    (forall x, bound_names s' x = if in_dec string_dec x (map fst pairs) then None else bound_names s x) /\
    stack s' = stack s /\ reads s' = reads s /\ writes s' = writes s /\ syncs s' = syncs s.
Proof.
  intros [R1 R2] N. unfold set_data_source_symbols. rewrite R1, R2. cbn [Nat.eqb andb].
  destruct (one_scope _ R1) as [ys EY]. destruct (one_scope _ R2) as [ts ET]. rewrite ET. cbn [clear_scope on_back].
  set (f := fun (p : string * A) (s0 : exec A) => _).
  assert (H : forall ps s1 y1 t1, symbols s1 = [y1] -> sources s1 = [t1] -> NoDup (map fst ps) ->
    (forall x, In x (map fst ps) -> scope_find t1 x = None) ->
    exists s' y' t', visits f ps s1 = Some s' /\ symbols s' = [y'] /\ sources s' = [t'] /\
      (forall x, scope_find t' x = match scope_find ps x with Some v => Some v | None => scope_find t1 x end) /\
      (forall x, scope_find y' x = if in_dec string_dec x (map fst ps) then None else scope_find y1 x) /\
      stack s' = stack s1 /\ reads s' = reads s1 /\ writes s' = writes s1 /\ syncs s' = syncs s1).
  { induction ps as [|[n v] ps IH]; intros s1 y1 t1 Y T NP F.
    - exists s1, y1, t1. cbn. repeat split; auto.
    - cbn [visits]. inversion NP as [|? ? N1 N2]; subst.
      assert (E : exists y2, scope_find y2 n = None /\ (forall x, x <> n -> scope_find y2 x = scope_find y1 x) /\
        f (n, v) s1 = Some (set_sources (set_symbols s1 [y2]) [scope_set_value t1 n v])).
      { unfold f. cbn [fst snd]. rewrite T, has_one, (F n) by (cbn; auto). rewrite Y, has_one.
        destruct (scope_find y1 n) eqn:FY.
        - exists (filter (fun b => negb (String.eqb (fst b) n)) y1). split; [|split].
          + rewrite find_filter, String.eqb_refl. auto.
          + intros x X. rewrite find_filter. rewrite (proj2 (String.eqb_neq n x)) by auto. auto.
          + cbn. unfold scope_erase_value. rewrite has_find, FY. auto.
        - exists y1. split; auto. }
      destruct E as (y2 & Y2n & Y2 & ->).
      destruct (IH (set_sources (set_symbols s1 [y2]) [scope_set_value t1 n v]) y2 (scope_set_value t1 n v))
        as (s' & y' & t' & E' & EY' & ET' & FT & FY & S1 & S2 & S3 & S4); auto.
      { intros x X. rewrite find_set. destruct (String.eqb_spec n x) as [->|M]; [tauto|]. apply F. cbn. auto. }
      exists s', y', t'. split; auto. split; auto. split; auto. split; [|split; [|repeat split; auto]].
      + intros x. rewrite FT, find_set. cbn [scope_find]. destruct (String.eqb_spec n x) as [->|M].
        * destruct (scope_find ps x) eqn:FP; auto. exfalso. apply N1. apply find_in. congruence.
        * auto.
      + intros x. rewrite FY. destruct (in_dec string_dec x (map fst ps)) as [J|J];
          destruct (in_dec string_dec x (map fst ((n, v) :: ps))) as [J'|J']; cbn in J'; auto; try tauto.
        * destruct (string_dec x n) as [->|M]; auto. exfalso. destruct J'; auto. }
  destruct (H pairs (set_sources s [[]]) ys []) as (s' & y' & t' & E' & EY' & ET' & FT & FY & S1 & S2 & S3 & S4); auto.
  exists s'. split; auto. split; [split; [rewrite EY'|rewrite ET']; auto|].
  split; [|split; [|repeat split; auto]].
  - intros x. unfold input_names. rewrite ET', value_one, FT. cbn. destruct (scope_find pairs x); auto.
  - intros x. unfold bound_names. rewrite EY', value_one, FY, EY, value_one. auto.
Qed.
Print Assumptions C48_session.

(** Whatever modules are executed one after the other, no data source is read more than once,
    and the name of a source that was read remains bound. *)
Theorem C48_read_once (A : Type) (operations : string -> option (op A)) (ms : list (list (stmt A))) (s s' : exec A) :
  ready s -> visits (exec_module operations) ms s = Some s' ->
  ready s' /\
  exists new, reads s' = reads s ++ new /\ NoDup new /\
    (forall x, In x new -> bound_names s x = None /\ bound_names s' x <> None) /\
    (forall x, bound_names s x <> None -> bound_names s' x <> None).
Proof.
  set (good := fun (s s' : exec A) => ready s' /\ exists new, reads s' = reads s ++ new /\ NoDup new /\
    (forall x, In x new -> bound_names s x = None /\ bound_names s' x <> None) /\
    (forall x, bound_names s x <> None -> bound_names s' x <> None)).
  change (ready s -> visits (exec_module operations) ms s = Some s' -> good s s').
  assert (GR : forall s0, ready s0 -> good s0 s0).
  { intros s0 R. split; auto. exists []. rewrite app_nil_r. repeat split; auto; try constructor; cbn in *; tauto. }
  assert (GT : forall s0 s1 s2, good s0 s1 -> good s1 s2 -> good s0 s2).
  { intros s0 s1 s2 (R1 & l1 & E1 & N1 & I1 & K1) (R2 & l2 & E2 & N2 & I2 & K2). split; auto. exists (l1 ++ l2).
    rewrite E2, E1, app_assoc. split; auto.
    assert (D : forall x, In x l1 -> ~ In x l2).
    { intros x X Y. apply I1 in X. apply I2 in Y. tauto. }
    split; [|split].
    - clear - N1 N2 D. induction N1 as [|x l X N1 IH]; cbn; auto. constructor.
      + rewrite in_app_iff. intros [Y|Y]; [auto|apply (D x); cbn; auto].
      + apply IH. intros y Y. apply D; cbn; auto.
    - intros x. rewrite in_app_iff. intros [X|X].
      + apply I1 in X as [X Y]. split; auto.
      + apply I2 in X as [X Y]. split; auto. destruct (bound_names s0 x) eqn:B; auto. exfalso. apply (K1 x); congruence.
    - auto. }
  assert (GS : forall s0 s1, good s0 s1 -> forall s2, symbols s2 = symbols s1 -> sources s2 = sources s1 -> reads s2 = reads s1 -> good s0 s2).
  { intros s0 s1 (R & l & E & N & I & K) s2 EY ET ER. unfold good, ready, bound_names in *. rewrite EY, ET, ER. split; auto. exists l. auto. }
  assert (GN : forall x s0 s1, ready s0 -> exec_name x s0 = Some s1 -> good s0 s1).
  { intros x s0 s1 R E. destruct (known (bound_names s0) (input_names s0) x) as [v|] eqn:K.
    - destruct (exec_name_some operations x v s0 R K) as (s2 & l & E2 & _ & D). rewrite E in E2. injection E2 as <-.
      destruct D as [D1 D2 D3 D4 D5 D6 D7]. split; auto. exists l. split; auto. split; auto. split.
      + intros y Y. split; [apply D5 in Y; tauto|]. rewrite D7. destruct (in_dec string_dec y l); [auto|tauto].
      + intros y Y. rewrite D7. destruct (in_dec string_dec y l); auto.
    - rewrite (exec_name_none x s0 R K) in E. discriminate. }
  assert (GV : forall X (f : X -> exec A -> option (exec A)) l,
    Forall (fun x => forall s0 s1, ready s0 -> f x s0 = Some s1 -> good s0 s1) l ->
    forall s0 s1, ready s0 -> visits f l s0 = Some s1 -> good s0 s1).
  { intros X f l F. induction F as [|x l Hx _ IH]; intros s0 s1 R E; cbn in E.
    - injection E as <-. auto.
    - destruct (f x s0) as [s2|] eqn:Ex; try discriminate. pose proof (Hx _ _ R Ex) as G. eapply GT; [exact G|].
      apply IH; auto. apply G. }
  assert (GP : forall n acc (s0 : exec A) vs s1, pop_arguments n acc s0 = Some (vs, s1) -> but_stack s0 s1).
  { induction n as [|n IH]; intros acc s0 vs s1 E; cbn in E.
    - injection E as _ <-. apply but_stack_refl.
    - destruct (stack s0); try discriminate. apply IH in E. destruct E as (a' & b' & c' & d' & e' & f'). repeat split; auto. }
  assert (GE : forall e s0 s1, ready s0 -> exec_expr operations e s0 = Some s1 -> good s0 s1).
  { induction e as [i x|i v|i f args IH|i e sel IHe IHs|i e mm IHe] using expr_induction; intros s0 s1 R E; cbn in E.
    - eauto.
    - injection E as <-. eapply GS; [apply (GR s0 R)|..]; auto.
    - destruct (visits _ args s0) as [s2|] eqn:V; try discriminate. pose proof (GV _ _ args IH _ _ R V) as G.
      destruct (operations f) as [o|]; try discriminate. destruct (arity o <=? _)%nat; try discriminate.
      destruct (pop_arguments _ _ s2) as [[vs s3]|] eqn:P; try discriminate. destruct (execute o vs) as [rs|]; try discriminate.
      injection E as <-. apply GP in P. destruct P as (a & b & c & d & g & h). destruct (push_all rs s3) as [_ (a' & b' & c' & d' & g' & h')].
      eapply GS; [exact G|..]; congruence.
    - injection E as <-. auto.
    - eauto. }
  assert (GA : forall t s0 s1, ready s0 -> exec_stmt operations t s0 = Some s1 -> good s0 s1).
  { intros t s0 s1 R E. destruct t as [i x e|e|c t f|c t f]; cbn [exec_stmt] in E.
    - destruct (exec_expr operations e s0) as [s2|] eqn:X; try discriminate. pose proof (GE _ _ _ R X) as G.
      destruct (stack s2) as [|v l] eqn:S; try discriminate. cbn zeta in E.
      set (s3 := if existsb (Nat.eqb i) (outs s2) && existsb (String.eqb x) (syncs s2) then add_write s2 x v else s2) in E.
      assert (F : symbols s3 = symbols s2 /\ sources s3 = sources s2 /\ reads s3 = reads s2) by (unfold s3; destruct (_ && _); repeat split).
      destruct F as (F1 & F2 & F3). destruct G as (R2 & new & E2 & N2 & I2 & K2).
      assert (L3 : scope_level (symbols s3) = 1) by (rewrite F1; apply R2).
      destruct (add_value_one (symbols s3) x v L3) as (t & AV & LT & BT). rewrite AV in E. injection E as <-.
      split; [split; cbn; [auto|rewrite F2; apply R2]|]. exists new. cbn. rewrite F3. split; auto. split; auto.
      unfold bound_names in *. cbn.
      assert (BB : forall y, value (symbols s2) y <> None -> value t y <> None).
      { intros y Y. rewrite BT, F1. destruct (String.eqb y x); [discriminate|auto]. }
      split; [intros y Y; split; [apply I2; auto|apply BB, I2; auto]|]. intros y Y. apply BB, K2, Y.
    - eauto.
    - injection E as <-. auto.
    - injection E as <-. auto. }
  apply GV. apply Forall_forall. intros m _ s0 s1 R E. unfold exec_module in E. destruct (io_module m) as [r|]; try discriminate.
  assert (G : good (set_outs s0 (outputs r)) s1).
  { apply (GV _ (exec_stmt operations) m); [apply Forall_forall; intros t _; apply GA|exact R|exact E]. }
  exact G.
Qed.
Print Assumptions C48_read_once.

(** The operations of the examples: [minus] has a result, [add] has not (std/add.cc:52-65). *)
Definition case_operations (f : string) : option (op nat) :=
  if String.eqb f "minus" then
    Some {| arity := 2; execute := fun vs => match vs with [x; y] => Some [x - y] | _ => None end |}
  else if String.eqb f "add" then Some {| arity := 2; execute := fun _ => Some [] |}
  else None.
Definition case_start : option (exec nat) := set_data_source_symbols [("a", 9); ("b", 4)] exec_initial.

(** [c = minus(a, minus(b, 1)); c; a = minus(c, a); a] *)
Definition case_module : list (stmt nat) :=
  [Assign 1 "c" (Operation 2 "minus" [Name 3 "a"; Operation 4 "minus" [Name 5 "b"; Const 6 1]]);
   Expr (Name 7 "c");
   Assign 8 "a" (Operation 9 "minus" [Name 10 "c"; Name 11 "a"]); Expr (Name 12 "a")].

Example C48_case :
  exists s b, case_start = Some s /\ ready s /\
    meaning case_operations (input_names s) (bound_names s) case_module =
      Some (b, [6; 0], [(1, "c", 6); (8, "a", 0)]) /\
    (exists s', exec_module case_operations case_module s = Some s' /\ stack s' = [0; 6] /\
       reads s' = ["a"; "b"] /\ bound_names s' "a" = Some 0 /\ bound_names s' "b" = Some 4).
Proof.
  eexists. eexists. split; [reflexivity|]. split; [split; reflexivity|]. split; [reflexivity|].
  eexists. split; [vm_compute; reflexivity|]. repeat split.
Qed.

Example C48_failure_case :
  Forall (plain_stmt case_operations) [Assign 1 "c" (Operation 2 "minus" [Name 3 "a"; Name 4 "nothing"])] /\
  exists s, case_start = Some s /\
    exec_module case_operations [Assign 1 "c" (Operation 2 "minus" [Name 3 "a"; Name 4 "nothing"])] s = None.
Proof. split; [repeat constructor|]. eexists. split; reflexivity. Qed.

(** After the stack has been cleared, the values that a module leaves are on it and no others
    (what the interactive interpreter shows), while the names keep their values. *)
Theorem C48_prompt (A : Type) (operations : string -> option (op A)) (m : list (stmt A)) (s : exec A) b rs ts :
  ready s ->
  meaning operations (input_names s) (bound_names s) m = Some (b, rs, ts) ->
  exists s', exec_module operations m (clear_stack s) = Some s' /\ stack s' = rev rs /\
    forall x v, b x = Some v -> bound_names s' x = Some v.
Proof.
  intros R M. destruct (C48_module A operations m (clear_stack s) b rs ts R M)
    as (s' & new & E & S & _ & _ & _ & B & _).
  exists s'. split; [exact E|]. split; [|exact B]. rewrite S. cbn. apply app_nil_r.
Qed.
Print Assumptions C48_prompt.

Example C48_prompt_case :
  exists s s', visits (exec_module case_operations) [[Expr (Const 1 5); Expr (Const 2 6)]] exec_initial = Some s /\
    stack s = [6; 5] /\
    exec_module case_operations [Expr (Const 1 7)] (clear_stack s) = Some s' /\ stack s' = [7].
Proof. eexists. eexists. split; [vm_compute; reflexivity|]. split; [reflexivity|]. split; [vm_compute; reflexivity|reflexivity]. Qed.

(** Statements inside of [if] and [while] are not executed: *)
Theorem C48_control_flow_refuted :
  ~ (forall (c : expr nat) t s s', ready s ->
       exec_module case_operations t s = Some s' ->
       forall s'', exec_module case_operations [If c t []] s = Some s'' ->
         forall x, bound_names s' x <> None -> bound_names s'' x <> None).
Proof.
  intros H. specialize (H (Const 1 1) [Assign 2 "c" (Const 3 7)] exec_initial). cbn zeta in H.
  destruct (exec_module case_operations [Assign 2 "c" (Const 3 7)] exec_initial) as [s1|] eqn:E1; [|discriminate].
  destruct (exec_module case_operations [If (Const 1 1) [Assign 2 "c" (Const 3 7)] []] exec_initial) as [s2|] eqn:E2; [|discriminate].
  apply (H s1 (conj eq_refl eq_refl) eq_refl s2 eq_refl "c").
  - vm_compute in E1. injection E1 as <-. discriminate.
  - vm_compute in E2. injection E2 as <-. reflexivity.
Qed.
Print Assumptions C48_control_flow_refuted.

(** An operation without results takes whatever is left on the stack as its value: after
    [5], [c = add(a, b)] binds [c] to 5, and without that the assertion on the stack fails. *)
Theorem C48_no_result_refuted :
  ~ (forall m s s', ready s -> exec_module case_operations m s = Some s' ->
       meaning case_operations (input_names s) (bound_names s) m <> None) /\
  (exists s s', case_start = Some s /\
     exec_module case_operations
       [Expr (Const 1 5); Assign 2 "c" (Operation 3 "add" [Name 4 "a"; Name 5 "b"])] s = Some s' /\
     bound_names s' "c" = Some 5 /\
     exec_module case_operations [Assign 2 "c" (Operation 3 "add" [Name 4 "a"; Name 5 "b"])] s = None).
Proof.
  split.
  - intros H.
    apply (H [Expr (Const 1 5); Assign 2 "c" (Operation 3 "add" [Const 4 1; Const 5 2])] exec_initial
      (match exec_module case_operations [Expr (Const 1 5); Assign 2 "c" (Operation 3 "add" [Const 4 1; Const 5 2])] exec_initial with
       | Some s' => s' | None => exec_initial end)); try (vm_compute; reflexivity). split; reflexivity.
  - eexists. eexists. split; [reflexivity|]. split; [vm_compute; reflexivity|]. split; reflexivity.
Qed.
Print Assumptions C48_no_result_refuted.

(** A subscript is not evaluated: [5; c = a[b]] binds [c] to 5 and reads nothing. *)
Theorem C48_subscript_refuted :
  exists s s', case_start = Some s /\
    exec_module case_operations
      [Expr (Const 1 5); Assign 2 "c" (Subscript 3 (Name 4 "a") (Name 5 "b"))] s = Some s' /\
    bound_names s' "c" = Some 5 /\ reads s' = [].
Proof. eexists. eexists. split; [reflexivity|]. split; [vm_compute; reflexivity|]. split; reflexivity. Qed.
Print Assumptions C48_subscript_refuted.

(** ** C50: writing *)

(** The addresses of the targets differ. *)
Definition distinct_targets {A} (m : list (stmt A)) : Prop := NoDup (map fst (definitions (events m))).

Lemma meaning_definitions {A} (operations : string -> option (op A)) ins m : forall b b' rs ts,
  meaning operations ins b m = Some (b', rs, ts) -> definitions (events m) = map fst ts.
Proof.
  assert (NE : forall e : expr A, definitions (expr_events e) = []).
  { induction e as [i x|i v|i f args IH|i e sel IHe IHs|i e mm IHe] using expr_induction; cbn; auto.
    - induction IH as [|a args Ha _ IHl]; cbn; auto. rewrite definitions_app, Ha. auto.
    - rewrite definitions_app, IHe. auto. }
  induction m as [|t m IH]; intros b b' rs ts M.
  - cbn in M. injection M as <- <- <-. auto.
  - destruct t as [i x e|e|c t f|c t f]; cbn [meaning] in M; try discriminate; unfold events; cbn [flat_map stmt_events];
      rewrite !definitions_app, ?NE; cbn.
    + destruct (values operations (known b ins) e) as [[|v [|w r]]|]; try discriminate.
      destruct (meaning operations ins _ m) as [[[b1 rs1] ts1]|] eqn:M1; try discriminate. injection M as <- <- <-.
      cbn. f_equal. apply (IH _ _ _ _ M1).
    + destruct (values operations (known b ins) e) as [vs|]; try discriminate.
      destruct (meaning operations ins _ m) as [[[b1 rs1] ts1]|] eqn:M1; try discriminate. injection M as <- <- <-.
      apply (IH _ _ _ _ M1).
Qed.

Lemma meaning_bound {A} (operations : string -> option (op A)) ins m : forall b b' rs ts,
  meaning operations ins b m = Some (b', rs, ts) ->
  forall x, b' x = fold_left (fun r t => match t with (_, y, v) => if String.eqb x y then Some v else r end) ts (b x).
Proof.
  induction m as [|t m IH]; intros b b' rs ts M x.
  - cbn in M. injection M as <- <- <-. auto.
  - destruct t as [i y e|e|c t f|c t f]; cbn [meaning] in M; try discriminate.
    + destruct (values operations (known b ins) e) as [[|v [|w r]]|]; try discriminate.
      destruct (meaning operations ins _ m) as [[[b1 rs1] ts1]|] eqn:M1; try discriminate. injection M as <- <- <-.
      cbn. rewrite (IH _ _ _ _ M1). reflexivity.
    + destruct (values operations (known b ins) e) as [vs|]; try discriminate.
      destruct (meaning operations ins _ m) as [[[b1 rs1] ts1]|] eqn:M1; try discriminate. injection M as <- <- <-.
      apply (IH _ _ _ _ M1).
Qed.

Lemma written_ext {A} os os' ys (ts : list (nat * string * A)) :
  (forall i x v, In (i, x, v) ts -> existsb (Nat.eqb i) os = existsb (Nat.eqb i) os') ->
  written os ys ts = written os' ys ts.
Proof.
  intros H. induction ts as [|[[i x] v] ts IH]; auto. unfold written in *. cbn [flat_map].
  rewrite (H i x v) by (left; auto). f_equal. apply IH. intros j y w I. apply (H j y w). right; auto.
Qed.

Lemma written_lasts {A} (ys : list string) (x : string) (ts : list (nat * string * A)) : NoDup (map fst (map fst ts)) -> forall r,
  filter (fun p => String.eqb (fst p) x) (written (map fst (lasts (map fst ts))) ys ts) =
    (if in_dec string_dec x ys then if in_dec string_dec x (map snd (map fst ts)) then
       match fold_left (fun r t => match t with (_, y, v) => if String.eqb x y then Some v else r end) ts r with
       | Some v => [(x, v)] | None => [] end else [] else []).
Proof.
  induction ts as [|[[i y] v] ts IH]; intros N r.
  - cbn. destruct (in_dec string_dec x ys); auto.
  - cbn [map fst] in N. inversion N as [|? ? N1 N2]; subst. specialize (IH N2).
    cbn [map fst snd lasts].
    set (os := map fst (if existsb _ _ then _ else _)).
    assert (W : written os ys ts = written (map fst (lasts (map fst ts))) ys ts).
    { apply written_ext. intros j z w J. unfold os. destruct (existsb _ (map fst ts)); auto. cbn.
      destruct (Nat.eqb_spec j i) as [->|]; auto. exfalso. apply N1. rewrite map_map. apply in_map_iff. exists (i, z, w). auto. }
    unfold written at 1. cbn [flat_map]. fold (written os ys ts). rewrite W, filter_app, (IH (if String.eqb x y then Some v else r)).
    assert (H : existsb (Nat.eqb i) os = negb (existsb (fun d => String.eqb (snd d) y) (map fst ts))).
    { unfold os. destruct (existsb (fun d => String.eqb (snd d) y) (map fst ts)) eqn:L; cbn.
      - destruct (existsb (Nat.eqb i) (map fst (lasts (map fst ts)))) eqn:X; auto. exfalso. apply N1.
        apply existsb_exists in X as (j & J & X). apply Nat.eqb_eq in X. subst j.
        clear -J. induction (map fst ts) as [|[k u] ds IHd]; [destruct J|]. cbn in J.
        destruct (existsb _ ds); cbn in *; tauto.
      - rewrite Nat.eqb_refl. auto. }
    rewrite H. cbn [fold_left].
    assert (M : forall l : list (nat * string), existsb (fun d => String.eqb (snd d) y) l = if in_dec string_dec y (map snd l) then true else false).
    { intros l. destruct (in_dec string_dec y (map snd l)) as [J|J].
      - apply in_map_iff in J as (d & <- & J). apply existsb_exists. exists d. split; auto. apply String.eqb_refl.
      - destruct (existsb _ l) eqn:L; auto. exfalso. apply J. apply existsb_exists in L as (d & D & L). apply String.eqb_eq in L. subst y. apply in_map; auto. }
    rewrite M. clear M H W. cbn [map fst snd].
    assert (Y : existsb (String.eqb y) ys = if in_dec string_dec y ys then true else false).
    { destruct (in_dec string_dec y ys) as [J|J].
      - apply existsb_exists. exists y. split; auto. apply String.eqb_refl.
      - destruct (existsb _ ys) eqn:L; auto. exfalso. apply J. apply existsb_exists in L as (d & D & L). apply String.eqb_eq in L. subst; auto. }
    rewrite Y.
    assert (FN : ~ In x (map snd (map fst ts)) -> forall r0 : option A, fold_left (fun r t => match t with (_, y, v) => if String.eqb x y then Some v else r end) ts r0 = r0).
    { clear. induction ts as [|[[j z] w] ts IHt]; intros J r0; auto. cbn in *. destruct (String.eqb_spec x z) as [->|]; [tauto|]. apply IHt. tauto. }
    destruct (string_dec x y) as [->|NE].
    + rewrite String.eqb_refl. destruct (in_dec string_dec y ys) as [J|J].
      * destruct (in_dec string_dec y (y :: _)) as [_|K]; [|exfalso; apply K; cbn; auto].
        destruct (in_dec string_dec y (map snd (map fst ts))) as [K|K]; cbn; auto. rewrite String.eqb_refl, FN by auto. auto.
      * destruct (in_dec string_dec y (map snd (map fst ts))); cbn; auto.
    + rewrite (proj2 (String.eqb_neq x y)) by auto.
      assert (F0 : filter (fun p : string * A => String.eqb (fst p) x) (if negb (if in_dec string_dec y (map snd (map fst ts)) then true else false) && (if in_dec string_dec y ys then true else false) then [(y, v)] else []) = []).
      { destruct (negb _ && _); auto. cbn. rewrite (proj2 (String.eqb_neq y x)) by auto. auto. }
      rewrite F0. cbn [app]. destruct (in_dec string_dec x ys); auto.
      destruct (in_dec string_dec x (map snd (map fst ts))) as [K|K]; destruct (in_dec string_dec x (y :: _)) as [K'|K']; cbn in K'; auto;
        exfalso; intuition congruence.
Qed.

(** If at most one name is redefined, the final value of every name that the module assigns and
    that has a data sync is written to that sync, once, and nothing else is written. *)
Theorem C50_writes (A : Type) (operations : string -> option (op A)) (m : list (stmt A)) (s : exec A) b rs ts :
  ready s ->
  meaning operations (input_names s) (bound_names s) m = Some (b, rs, ts) ->
  one_redefined (definitions (events m)) -> distinct_targets m ->
  exists s' new, exec_module operations m s = Some s' /\ writes s' = writes s ++ new /\
    forall x, filter (fun p => String.eqb (fst p) x) new =
      if in_dec string_dec x (syncs s) then
        if in_dec string_dec x (map snd (definitions (events m)))
        then match b x with Some v => [(x, v)] | None => [] end
        else []
      else [].
Proof.
  intros R M O D. destruct (C50_outputs A m O) as (r & E & OU). unfold exec_module. rewrite E.
  assert (R' : ready (set_outs s (outputs r))) by exact R.
  destruct (exec_stmts_run operations (input_names s) m _ _ _ _ [] (set_outs s (outputs r)) M (stands_start _ R'))
    as (s' & l & E' & ST & I & SK & RD & _ & _ & _ & WR). exists s'. eexists. split; [exact E'|]. split; [exact WR|].
  intros x. cbn [outs syncs set_outs]. unfold distinct_targets in D. rewrite OU.
  rewrite (meaning_definitions operations _ m _ _ _ _ M) in *. rewrite (meaning_bound operations _ m _ _ _ _ M).
  apply (written_lasts (syncs s) x ts D).
Qed.
Print Assumptions C50_writes.

(** If two names are redefined, final values are not written: after [redefined], with syncs for
    both names, [b] is written twice, and [a] is not written at all. *)
Theorem C50_writes_refuted :
  exists s', exec_module case_operations redefined (set_data_sync_symbols ["a"; "b"] exec_initial) = Some s' /\
    writes s' = [("b", 2); ("b", 4)] /\ bound_names s' "a" = Some 3.
Proof. eexists. split; [vm_compute; reflexivity|]. split; reflexivity. Qed.
Print Assumptions C50_writes_refuted.

Example C50_writes_case :
  exists s s', option_map (set_data_sync_symbols ["a"; "b"]) case_start = Some s /\
    one_redefined (definitions (events case_module)) /\ distinct_targets case_module /\
    exec_module case_operations case_module s = Some s' /\ writes s' = [("a", 0)].
Proof.
  eexists. eexists. split; [reflexivity|]. split; [|split; [|split; [vm_compute; reflexivity|reflexivity]]].
  - exists "a". intros y N. change (count_occ string_dec ["c"; "a"] y <= 1). cbn [count_occ].
    destruct (string_dec "c" y); destruct (string_dec "a" y); subst; try lia; congruence.
  - unfold distinct_targets. cbn. repeat constructor; cbn; intuition discriminate.
Qed.
