(** * Proofs about the execution of modules *)
From Coq Require Import String List Bool Arith Lia.
From Verif Require Import AstModel SymbolModel SymbolProofs IoModel IoSpec IoProofs ExecModel ExecSpec.
Import ListNotations.

Section Proofs.
Context {A : Type}.
Variable operations : string -> option (op A).
Implicit Types (s : exec A) (e : expr A).

(** ** Tables with one scope *)
Lemma one_scope (t : table A) : scope_level t = 1 -> exists sc, t = [sc].
Proof. destruct t as [|sc [|? ?]]; try discriminate. intros _. exists sc; auto. Qed.
Lemma value_one (sc : scope A) x : value [sc] x = scope_find sc x.
Proof. rewrite value_lookup. cbn. unfold lookup. destruct (scope_find sc x); auto. Qed.
Lemma has_one (sc : scope A) x : has_value [sc] x = match scope_find sc x with Some _ => true | None => false end.
Proof. cbn. rewrite orb_false_r. apply has_find. Qed.
Lemma has_value_some (t : table A) x : scope_level t = 1 ->
  has_value t x = match value t x with Some _ => true | None => false end.
Proof. intros H. destruct (one_scope t H) as [sc ->]. rewrite has_one, value_one. auto. Qed.
Lemma add_value_one (t : table A) x v : scope_level t = 1 ->
  exists t', add_value t x v = Some t' /\ scope_level t' = 1 /\
    forall y, value t' y = if String.eqb y x then Some v else value t y.
Proof.
  intros H. destruct (one_scope t H) as [sc ->]. exists [scope_set_value sc x v]. split; [reflexivity|]. split; auto.
  intros y. rewrite !value_one, find_set, String.eqb_sym. auto.
Qed.

(** ** Reading names *)
Definition same_but s s' : Prop :=
  sources s' = sources s /\ syncs s' = syncs s /\ outs s' = outs s /\ writes s' = writes s.

(** The names in [l] are read from their sources, once each, and are bound from then on. *)
Record reading (P : string -> Prop) (l : list string) s s' : Prop := {
  rd_ready : ready s';
  rd_same : same_but s s';
  rd_reads : reads s' = reads s ++ l;
  rd_nodup : NoDup l;
  rd_in : forall x, In x l <-> P x /\ bound_names s x = None;
  rd_known : forall x, In x l -> input_names s x <> None;
  rd_bound : forall x, bound_names s' x = if in_dec string_dec x l then input_names s x else bound_names s x
}.

Lemma reading_none s P : (forall x, ~ P x) -> ready s -> reading P [] s s.
Proof.
  intros N R. constructor; auto; try (constructor; auto; fail).
  - rewrite app_nil_r; auto.
  - intros x. cbn. split; [tauto|intros [X _]; apply (N x X)].
Qed.

Lemma reading_trans P Q l l' s s1 s2 : reading P l s s1 -> reading Q l' s1 s2 ->
  reading (fun x => P x \/ Q x) (l ++ l') s s2.
Proof.
  intros [R1 S1 E1 N1 I1 K1 B1] [R2 S2 E2 N2 I2 K2 B2].
  assert (IN : forall x, input_names s1 x = input_names s x) by (intros x; unfold input_names; f_equal; apply S1).
  assert (D : forall x, In x l -> ~ In x l').
  { intros x X Y. apply I2 in Y as [_ Y]. rewrite B1 in Y. destruct (in_dec string_dec x l); [|tauto]. apply (K1 x X Y). }
  constructor; auto.
  - destruct S1 as (a & b & c & d), S2 as (a' & b' & c' & d'). repeat split; congruence.
  - rewrite E2, E1, app_assoc. auto.
  - clear - N1 N2 D. induction N1 as [|x l X N1 IH]; cbn; auto. constructor.
    + rewrite in_app_iff. intros [Y|Y]; [auto|apply (D x); cbn; auto].
    + apply IH. intros y Y. apply D; cbn; auto.
  - intros x. rewrite in_app_iff, I2. split.
    + intros [X|[X Y]]; [apply I1 in X; tauto|]. rewrite B1 in Y. destruct (in_dec string_dec x l) as [J|J]; [|tauto].
      exfalso. apply (K1 x J Y).
    + intros [[X|X] Y]; [left; apply I1; auto|]. destruct (in_dec string_dec x l) as [J|J]; auto. right. split; auto.
      rewrite B1. destruct (in_dec string_dec x l); tauto.
  - intros x. rewrite in_app_iff. intros [X|X]; auto. rewrite <- IN. auto.
  - intros x. rewrite B2, IN, B1. destruct (in_dec string_dec x (l ++ l')) as [J|J]; rewrite in_app_iff in J;
      destruct (in_dec string_dec x l'); destruct (in_dec string_dec x l); tauto.
Qed.

Lemma reading_iff P Q l s s' : (forall x, P x <-> Q x) -> reading P l s s' -> reading Q l s s'.
Proof. intros H [R S E N I K B]. constructor; auto. intros x. rewrite <- H. auto. Qed.

(** Only the stack differs. *)
Definition but_stack s s' : Prop :=
  symbols s' = symbols s /\ sources s' = sources s /\ syncs s' = syncs s /\ outs s' = outs s /\
  reads s' = reads s /\ writes s' = writes s.
Lemma reading_stack P l s s1 s2 : but_stack s1 s2 -> reading P l s s1 -> reading P l s s2.
Proof.
  intros (a & b & c & d & f & g) [R S E N I K B]. destruct S as (S1 & S2 & S3 & S4).
  constructor; auto; unfold ready, same_but, bound_names in *; rewrite ?a, ?b, ?c, ?d, ?f, ?g; auto.
Qed.
Lemma but_stack_refl s : but_stack s s.
Proof. repeat split. Qed.
Lemma set_stack_but s l : but_stack s (set_stack s l).
Proof. repeat split. Qed.

Lemma known_keeps P l s s' : reading P l s s' -> forall x,
  known (bound_names s') (input_names s') x = known (bound_names s) (input_names s) x.
Proof.
  intros [R S E N I K B] x. unfold known. rewrite B.
  assert (X : input_names s' x = input_names s x) by (unfold input_names; f_equal; apply S). rewrite X.
  destruct (in_dec string_dec x l) as [J|J]; auto.
  destruct (I x) as [I1 _]. destruct (I1 J) as [_ ->]. destruct (input_names s x); auto.
Qed.

(** ** Names *)
Lemma exec_name_some x v s : ready s -> known (bound_names s) (input_names s) x = Some v ->
  exists s' l, exec_name x s = Some s' /\ stack s' = v :: stack s /\ reading (fun y => x = y) l s s'.
Proof.
  intros [R1 R2] K. unfold exec_name. rewrite (has_value_some (symbols s) x R1). unfold known, bound_names, input_names in *.
  destruct (value (symbols s) x) as [w|] eqn:V.
  - injection K as ->. rewrite (has_value_some _ _ R1), V. eexists; exists []; split; [reflexivity|]. split; [reflexivity|].
    eapply reading_stack; [apply set_stack_but|]. constructor; auto; try (constructor; auto; fail).
    + rewrite app_nil_r; auto.
    + intros y. cbn. split; [tauto|]. intros [<- Y]. unfold bound_names in Y. congruence.
  - rewrite (has_value_some (sources s) x R2), K. destruct (add_value_one (symbols s) x v R1) as (t & -> & L & B).
    set (s1 := add_read (set_symbols s t) x). assert (L1 : scope_level (symbols s1) = 1) by auto.
    rewrite (has_value_some _ _ L1). assert (E : value (symbols s1) x = Some v) by (cbn; rewrite B, String.eqb_refl; auto).
    rewrite E. eexists; exists [x]; split; [reflexivity|]. split; [reflexivity|].
    eapply reading_stack; [apply set_stack_but|]. constructor; auto.
    + split; auto.
    + repeat split.
    + repeat constructor; auto.
    + intros y. cbn. split; [intros [<-|[]]; auto|intros [<- _]; auto].
    + intros y [<-|[]]. unfold input_names. congruence.
    + intros y. unfold bound_names, input_names. cbn [symbols s1 add_read set_symbols]. rewrite B.
      destruct (String.eqb_spec y x) as [->|M]; destruct (in_dec string_dec _ [x]) as [J|J]; cbn in J; auto;
        [exfalso; tauto|]. exfalso. destruct J as [<-|[]]; auto.
Qed.

Lemma exec_name_none x s : ready s -> known (bound_names s) (input_names s) x = None -> exec_name x s = None.
Proof.
  intros [R1 R2] K. unfold exec_name. rewrite (has_value_some (symbols s) x R1), (has_value_some (sources s) x R2).
  unfold known, bound_names, input_names in K. destruct (value (symbols s) x); [discriminate|]. rewrite K. auto.
Qed.

(** ** Expressions *)
Lemma pop_arguments_rev vs : forall acc st s, stack s = rev vs ++ st ->
  pop_arguments (length vs) acc s = Some (vs ++ acc, set_stack s st).
Proof.
  induction vs as [|v vs IH] using rev_ind; intros acc st s E.
  - cbn in *. subst st. destruct s; auto.
  - rewrite app_length, Nat.add_comm. cbn. rewrite rev_app_distr in E. cbn in E. rewrite E.
    rewrite (IH (v :: acc) st); [|auto]. rewrite <- app_assoc. auto.
Qed.

Lemma pop_short n : forall acc s, length (stack s) < n -> pop_arguments n acc s = None.
Proof.
  induction n as [|n IH]; intros acc s H; [lia|]. cbn. destruct (stack s) as [|v l] eqn:E; auto. apply IH. cbn in *. lia.
Qed.

Lemma push_all rs : forall s, stack (fold_left (fun s r => push r s) rs s) = rev rs ++ stack s /\
  but_stack s (fold_left (fun s r => push r s) rs s).
Proof.
  induction rs as [|r rs IH]; intros s; cbn.
  - split; auto. apply but_stack_refl.
  - destruct (IH (push r s)) as [S B]. split; [rewrite S; cbn; rewrite <- app_assoc; auto|].
    destruct B as (a & b & c & d & f & g). repeat split; [rewrite a|rewrite b|rewrite c|rewrite d|rewrite f|rewrite g]; auto.
Qed.

Lemma values_ext n n' e : (forall x, n x = n' x) -> values operations n e = values operations n' e.
Proof.
  intros H. induction e as [i x|i v|i f args IH|i e sel IHe IHs|i e m IHe] using expr_induction; cbn; auto.
  - rewrite H; auto.
  - assert (E : map (values operations n) args = map (values operations n') args).
    { apply map_ext_in. intros a I. rewrite Forall_forall in IH. auto. }
    rewrite E. auto.
Qed.

Lemma one_each_length l : forall vs, one_each l = Some vs -> length vs = length (A:=option (list A)) l.
Proof.
  induction l as [|[[|v [|w r]]|] l IH]; intros vs; cbn; try discriminate; [intros [= <-]; auto|].
  destruct (one_each l) as [ws|]; try discriminate. intros [= <-]. cbn. auto.
Qed.

Definition runs e : Prop := forall s rs, ready s ->
  values operations (known (bound_names s) (input_names s)) e = Some rs ->
  exists s' l, exec_expr operations e s = Some s' /\ stack s' = rev rs ++ stack s /\ reading (uses e) l s s'.

Lemma args_run args : Forall runs args -> forall s vs, ready s ->
  one_each (map (values operations (known (bound_names s) (input_names s))) args) = Some vs ->
  exists s' l, visits (exec_expr operations) args s = Some s' /\ stack s' = rev vs ++ stack s /\
    reading (fun x => fold_right (fun a P => uses a x \/ P) False args) l s s'.
Proof.
  induction 1 as [|a args Ha _ IH]; intros s vs R; cbn.
  - intros [= <-]. exists s, []. split; auto. split; auto. apply reading_none; auto.
  - destruct (values operations (known (bound_names s) (input_names s)) a) as [[|v [|w r]]|] eqn:V; try discriminate.
    destruct (one_each _) as [ws|] eqn:O; try discriminate. intros [= <-].
    destruct (Ha s [v] R V) as (s1 & l1 & -> & S1 & D1).
    assert (O' : one_each (map (values operations (known (bound_names s1) (input_names s1))) args) = Some ws).
    { rewrite <- O. f_equal. apply map_ext. intros b. apply values_ext, (known_keeps _ _ _ _ D1). }
    destruct (IH s1 ws (rd_ready _ _ _ _ D1) O') as (s2 & l2 & E2 & S2 & D2).
    exists s2, (l1 ++ l2). split; auto. split.
    + rewrite S2, S1. cbn. rewrite <- app_assoc. auto.
    + apply (reading_trans _ _ _ _ _ _ _ D1 D2).
Qed.

Lemma exec_expr_runs e : runs e.
Proof.
  induction e as [i x|i v|i f args IH|i e sel IHe IHs|i e m IHe] using expr_induction; intros s rs R; cbn.
  - destruct (known _ _ x) as [v|] eqn:K; try discriminate. intros [= <-].
    destruct (exec_name_some x v s R K) as (s' & l & E & S & D). exists s', l. auto.
  - intros [= <-]. exists (push v s), []. split; auto. split; auto.
    eapply reading_stack; [apply set_stack_but|]. apply reading_none; auto.
  - destruct (operations f) as [o|] eqn:F; try discriminate.
    destruct (one_each _) as [vs|] eqn:O; try discriminate.
    destruct (Nat.eqb_spec (length vs) (arity o)) as [L|L]; try discriminate. intros X.
    destruct (args_run args IH s vs R O) as (s1 & l & -> & S1 & D1).
    rewrite <- L. rewrite S1, app_length, rev_length.
    rewrite (proj2 (Nat.leb_le _ _)) by lia.
    assert (LA : length args = length vs) by (apply one_each_length in O; rewrite map_length in O; auto).
    rewrite LA, (pop_arguments_rev vs [] (stack s) s1 S1), app_nil_r, X.
    destruct (push_all rs (set_stack s1 (stack s))) as [S2 B2].
    eexists; exists l; split; [reflexivity|]. split; [rewrite S2; auto|].
    eapply reading_stack; [exact B2|]. eapply reading_stack; [apply set_stack_but|auto].
  - discriminate.
  - intros V. exact (IHe s rs R V).
Qed.

(** If the expression has no value, the execution fails. *)
Lemma exec_expr_fails (OR : one_result operations) e : plain operations e -> forall s, ready s ->
  match values operations (known (bound_names s) (input_names s)) e with
  | Some rs => exists v, rs = [v]
  | None => exec_expr operations e s = None
  end.
Proof.
  induction e as [i x|i v|i f args IH|i e sel IHe IHs|i e m IHe] using expr_induction; intros P s R; cbn [values exec_expr].
  - destruct (known _ _ x) as [v|] eqn:K; [eauto|]. apply exec_name_none; auto.
  - eauto.
  - destruct P as [L P].
    assert (H : forall s, ready s -> match one_each (map (values operations (known (bound_names s) (input_names s))) args) with
      | Some _ => True | None => visits (exec_expr operations) args s = None end).
    { clear s R L. induction IH as [|a args Ha _ IHl]; intros s R; cbn; auto. destruct P as [Pa P].
      pose proof (Ha Pa s R) as Hv. destruct (values operations _ a) as [ws|] eqn:V; [|rewrite Hv; auto].
      destruct Hv as [v ->]. destruct (exec_expr_runs a s [v] R V) as (s1 & l1 & E1 & S1 & D1). rewrite E1.
      specialize (IHl P s1 (rd_ready _ _ _ _ D1)).
      assert (EX : map (values operations (known (bound_names s1) (input_names s1))) args =
        map (values operations (known (bound_names s) (input_names s))) args).
      { apply map_ext. intros b. apply values_ext, (known_keeps _ _ _ _ D1). }
      rewrite EX in IHl. destruct (one_each _); auto. }
    specialize (H s R). destruct (operations f) as [o|] eqn:F.
    + destruct (one_each _) as [vs|] eqn:O; [|rewrite H; auto].
      assert (LA : length vs = length args) by (apply one_each_length in O; rewrite map_length in O; auto).
      assert (RA : Forall runs args) by (apply Forall_forall; intros a _; apply exec_expr_runs).
      destruct (args_run args RA s vs R O) as (s1 & l & E1 & S1 & D1).
      rewrite LA, L, Nat.eqb_refl. destruct (execute o vs) as [rs|] eqn:X; [eapply OR; eauto|].
      rewrite E1. destruct (length args <=? length (stack s1)); auto.
      rewrite <- LA, (pop_arguments_rev vs [] (stack s) s1 S1), app_nil_r, X. auto.
    + destruct (visits (exec_expr operations) args s); auto.
  - destruct P.
  - cbn in P. apply IHe; auto.
Qed.

(** ** Modules *)
Record stands (ins b : env) (l : list string) s : Prop := {
  st_ready : ready s;
  st_ins : forall x, input_names s x = ins x;
  st_nodup : NoDup l;
  st_known : forall x, In x l -> ins x <> None;
  st_bound : forall x, bound_names s x =
    match b x with Some v => Some v | None => if in_dec string_dec x l then ins x else None end
}.

Lemma stands_known ins b l s : stands ins b l s -> forall x,
  known (bound_names s) (input_names s) x = known b ins x.
Proof.
  intros [R I N K B] x. unfold known. rewrite B, I. destruct (b x); auto. destruct (in_dec string_dec x l); auto.
  destruct (ins x); auto.
Qed.

Lemma stands_reading ins b l s P l' s' : stands ins b l s -> reading P l' s s' ->
  stands ins b (l ++ l') s' /\ (forall x, In x l' <-> (P x /\ b x = None) /\ ~ In x l).
Proof.
  intros [R I N K B] [R' S' E' N' I' K' B'].
  assert (X : forall x, In x l' <-> (P x /\ b x = None) /\ ~ In x l).
  { intros x. rewrite I', B. destruct (b x) eqn:BX; [intuition congruence|].
    destruct (in_dec string_dec x l) as [J|J]; [|tauto]. specialize (K x J). tauto. }
  split; auto. constructor; auto.
  - intros x. rewrite <- I. unfold input_names. f_equal. apply S'.
  - clear - N N' X. assert (D : forall x, In x l -> ~ In x l') by (intros x Y Z; apply X in Z; tauto).
    clear X. induction N as [|x l X N1 IH]; cbn; auto. constructor.
    + rewrite in_app_iff. intros [Y|Y]; [auto|apply (D x); cbn; auto].
    + apply IH. intros y Y. apply D; cbn; auto.
  - intros x. rewrite in_app_iff. intros [Y|Y]; auto. rewrite <- I. auto.
  - intros x. rewrite B', B, I. destruct (b x) eqn:BX.
    + destruct (in_dec string_dec x l') as [J|J]; auto. apply X in J. destruct J as [[_ J] _]. congruence.
    + destruct (in_dec string_dec x l'), (in_dec string_dec x l), (in_dec string_dec x (l ++ l')) as [J|J]; rewrite in_app_iff in J; tauto.
Qed.

Definition written (os : list nat) (ys : list string) (ts : list (nat * string * A)) : list (string * A) :=
  flat_map (fun t => match t with (i, x, v) =>
    if existsb (Nat.eqb i) os && existsb (String.eqb x) ys then [(x, v)] else [] end) ts.

Lemma needs_ext b b' m x : (forall y, b y <-> b' y) -> needs (A:=A) b m x <-> needs b' m x.
Proof.
  revert b b'. induction m as [|t m IH]; intros b b' H; cbn; [tauto|]. destruct t as [i y e|e|c t f|c t f]; cbn.
  - rewrite (IH (fun z => z = y \/ b z) (fun z => z = y \/ b' z)), H; [tauto|]. intros z. rewrite H. tauto.
  - rewrite (IH b b' H), H. tauto.
  - apply IH; auto.
  - apply IH; auto.
Qed.

Lemma exec_stmts_run ins m : forall b b' rs ts l s, meaning operations ins b m = Some (b', rs, ts) -> stands ins b l s ->
  exists s' l', visits (exec_stmt operations) m s = Some s' /\ stands ins b' (l ++ l') s' /\
    (forall x, In x l' <-> needs (fun y => b y <> None) m x /\ ~ In x l) /\
    stack s' = rev rs ++ stack s /\ reads s' = reads s ++ l' /\ sources s' = sources s /\ syncs s' = syncs s /\
    outs s' = outs s /\ writes s' = writes s ++ written (outs s) (syncs s) ts.
Proof.
  induction m as [|t m IH]; intros b b' rs ts l s M ST.
  - cbn in M. injection M as <- <- <-. exists s, []. cbn. rewrite !app_nil_r. repeat split; auto; try tauto; apply ST.
  - assert (OR : forall x P, (b x <> None -> P \/ ~ P) -> True) by auto. clear OR.
    assert (N : forall x, b x = None <-> ~ b x <> None).
    { intros x. split; [congruence|]. destruct (b x); auto. intros X. exfalso. apply X. discriminate. }
    destruct t as [i y e|e|c t f|c t f]; cbn [meaning] in M; try discriminate.
    + destruct (values operations (known b ins) e) as [[|v [|w r]]|] eqn:V; try discriminate.
      destruct (meaning operations ins (bind_name y v b) m) as [[[b1 rs1] ts1]|] eqn:M1; try discriminate.
      injection M as <- <- <-.
      rewrite (values_ext _ (known (bound_names s) (input_names s))) in V by (intros z; rewrite (stands_known _ _ _ _ ST); auto).
      destruct (exec_expr_runs e s [v] (st_ready _ _ _ _ ST) V) as (s1 & l1 & E1 & S1 & D1).
      destruct (stands_reading _ _ _ _ _ _ _ ST D1) as [ST1 I1]. cbn in S1.
      destruct (rd_same _ _ _ _ D1) as (Q1 & Q2 & Q3 & Q4).
      set (hit := existsb (Nat.eqb i) (outs s1) && existsb (String.eqb y) (syncs s1)).
      set (s2 := if hit then add_write s1 y v else s1).
      assert (E2 : symbols s2 = symbols s1 /\ sources s2 = sources s1 /\ stack s2 = stack s1 /\ syncs s2 = syncs s1 /\ outs s2 = outs s1 /\
        reads s2 = reads s1 /\ writes s2 = writes s1 ++ (if hit then [(y, v)] else [])).
      { unfold s2. destruct hit; cbn; rewrite ?app_nil_r; repeat split. }
      destruct E2 as (F1 & F2 & F3 & F4 & F5 & F6 & F7).
      assert (LV : scope_level (symbols s2) = 1) by (rewrite F1; apply (st_ready _ _ _ _ ST1)).
      destruct (add_value_one (symbols s2) y v LV) as (t & AV & LT & BT).
      assert (X1 : exec_stmt operations (Assign i y e) s = Some (set_stack (set_symbols s2 t) (stack s))).
      { cbn [exec_stmt]. rewrite E1, S1. fold hit. fold s2. rewrite AV. reflexivity. }
      set (s3 := set_stack (set_symbols s2 t) (stack s)) in *.
      assert (ST3 : stands ins (bind_name y v b) (l ++ l1) s3).
      { destruct ST1 as [R I NN K B]. constructor; auto.
        - split; [exact LT|]. cbn. rewrite F2. apply R.
        - intros x. rewrite <- I. unfold input_names. cbn. rewrite F2. auto.
        - intros x. unfold bound_names. cbn [s3 symbols set_stack set_symbols]. rewrite BT. unfold bind_name.
          destruct (String.eqb x y); auto. rewrite F1. apply B. }
      destruct (IH _ _ _ _ _ _ M1 ST3) as (s' & l' & E' & ST' & I' & SK & RD & SO & SY & OU & WR).
      exists s', (l1 ++ l'). cbn [visits]. rewrite X1. split; auto. rewrite app_assoc. split; auto.
      assert (BN : forall z, (bind_name y v b) z <> None <-> (z = y \/ b z <> None)).
      { intros z. unfold bind_name. destruct (String.eqb_spec z y) as [->|NE]; [split; [auto|discriminate]|]. tauto. }
      split.
      { intros x. cbn [needs]. rewrite in_app_iff, I', I1, in_app_iff, I1.
        rewrite (needs_ext _ (fun z => z = y \/ b z <> None) m x BN). rewrite N.
        destruct (in_dec string_dec x l); destruct (in_dec string_dec x l1) as [J|J]; rewrite I1, N in J; tauto. }
      rewrite SK, RD, SO, SY, OU, WR. cbn [s3 stack reads sources syncs outs writes set_stack set_symbols].
      rewrite F2, F4, F5, F6, F7. rewrite (rd_reads _ _ _ _ D1), Q1, Q2, Q3, Q4. unfold written at 2. cbn [flat_map].
      fold (written (outs s) (syncs s) ts1). unfold hit. rewrite Q2, Q3.
      repeat split; auto; rewrite !app_assoc; auto.
    + destruct (values operations (known b ins) e) as [vs|] eqn:V; try discriminate.
      destruct (meaning operations ins b m) as [[[b1 rs1] ts1]|] eqn:M1; try discriminate.
      injection M as <- <- <-.
      rewrite (values_ext _ (known (bound_names s) (input_names s))) in V by (intros z; rewrite (stands_known _ _ _ _ ST); auto).
      destruct (exec_expr_runs e s vs (st_ready _ _ _ _ ST) V) as (s1 & l1 & E1 & S1 & D1).
      destruct (stands_reading _ _ _ _ _ _ _ ST D1) as [ST1 I1].
      destruct (rd_same _ _ _ _ D1) as (Q1 & Q2 & Q3 & Q4).
      destruct (IH _ _ _ _ _ _ M1 ST1) as (s' & l' & E' & ST' & I' & SK & RD & SO & SY & OU & WR).
      exists s', (l1 ++ l'). cbn [visits exec_stmt]. rewrite E1. split; auto. rewrite app_assoc. split; auto.
      split.
      { intros x. cbn [needs]. rewrite in_app_iff, I', I1, in_app_iff, I1. rewrite N.
        destruct (in_dec string_dec x l); destruct (in_dec string_dec x l1) as [J|J]; rewrite I1, N in J; tauto. }
      rewrite SK, RD, SO, SY, OU, WR, S1. rewrite (rd_reads _ _ _ _ D1), Q1, Q2, Q3, Q4. rewrite rev_app_distr.
      repeat split; auto; rewrite !app_assoc; auto.
Qed.

Lemma exec_stmts_fail (OR : one_result operations) ins m : Forall (plain_stmt operations) m -> forall b l s,
  stands ins b l s -> meaning operations ins b m = None -> visits (exec_stmt operations) m s = None.
Proof.
  induction 1 as [|t m P PM IH]; intros b l s ST M; [discriminate|]. cbn [visits].
  destruct t as [i y e|e|c t f|c t f]; cbn [plain_stmt] in P; try destruct P.
  - pose proof (exec_expr_fails OR e P s (st_ready _ _ _ _ ST)) as H.
    rewrite (values_ext _ (known b ins)) in H by (intros z; rewrite (stands_known _ _ _ _ ST); auto). cbn [meaning] in M.
    destruct (values operations (known b ins) e) as [vs|] eqn:V; [|cbn [exec_stmt]; rewrite H; auto].
    destruct H as [v ->]. destruct (meaning operations ins (bind_name y v b) m) as [[[b1 rs1] ts1]|] eqn:M1; try discriminate.
    destruct (exec_stmts_run ins [Assign i y e] b (bind_name y v b) [] [(i, y, v)] l s) as (s1 & l1 & E1 & ST1 & _); auto.
    { cbn. rewrite V. auto. }
    cbn [visits] in E1. destruct (exec_stmt operations (Assign i y e) s) as [s2|] eqn:E2; try discriminate.
    injection E1 as ->. eapply IH; eauto.
  - pose proof (exec_expr_fails OR e P s (st_ready _ _ _ _ ST)) as H.
    rewrite (values_ext _ (known b ins)) in H by (intros z; rewrite (stands_known _ _ _ _ ST); auto). cbn [meaning] in M.
    destruct (values operations (known b ins) e) as [vs|] eqn:V; [|cbn [exec_stmt]; rewrite H; auto].
    destruct H as [v ->]. destruct (meaning operations ins b m) as [[[b1 rs1] ts1]|] eqn:M1; try discriminate.
    destruct (exec_stmts_run ins [Expr e] b b [v] [] l s) as (s1 & l1 & E1 & ST1 & _); auto.
    { cbn. rewrite V. auto. }
    cbn [visits] in E1. destruct (exec_stmt operations (Expr e) s) as [s2|] eqn:E2; try discriminate.
    injection E1 as ->. eapply IH; eauto.
Qed.

Lemma stands_start s : ready s -> stands (input_names s) (bound_names s) [] s.
Proof.
  intros R. constructor; auto; try (constructor; auto; fail). intros x. cbn. destruct (bound_names s x); auto.
Qed.
End Proofs.
