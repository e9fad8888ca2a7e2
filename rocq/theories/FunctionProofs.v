(** * Proofs about scripts with functions *)
From Coq Require Import String List Bool Arith Lia.
From Verif Require Import AstModel SymbolModel FlagModel IdentifyModel AnnotateModel AnnotateSpec AnnotateProofs IoModel ExecModel ExecSpec ExecProofs
  InterpretModel InterpretSpec InterpretProofs InterpretProps FunctionModel FunctionSpec.
Import ListNotations.

Section Proofs.
Context {A : Type}.

Section Induction.
Variable P : fstmt A -> Prop.
Hypothesis HAssign : forall t x e, P (FAssign t x e).
Hypothesis HExpr : forall e, P (FExpr e).
Hypothesis HIf : forall c t f, Forall P t -> Forall P f -> P (FIf c t f).
Hypothesis HWhile : forall c t f, Forall P t -> Forall P f -> P (FWhile c t f).
Hypothesis HDefine : forall f ps b, Forall P b -> P (FDefine f ps b).
Hypothesis HReturn : forall e, P (FReturn e).
Fixpoint fstmt_induction (s : fstmt A) : P s :=
  let all := fix go l : Forall P l :=
    match l with [] => Forall_nil P | x :: l' => Forall_cons x (fstmt_induction x) (go l') end in
  match s with
  | FAssign t x e => HAssign t x e
  | FExpr e => HExpr e
  | FIf c t f => HIf c t f (all t) (all f)
  | FWhile c t f => HWhile c t f (all t) (all f)
  | FDefine f ps b => HDefine f ps b (all b)
  | FReturn e => HReturn e
  end.
End Induction.

(** ** Each visitor does the same as for the script with the bodies in place *)
Section Visitor.
Context {S : Type}.
Variable g : expr A -> S -> option S.
Variable f : stmt A -> S -> option S.
Variable h : fstmt A -> S -> option S.
Hypothesis f_expr : forall e s, f (Expr e) s = g e s.

Lemma visits_one {X} (k : X -> S -> option S) x s : visits k [x] s = k x s.
Proof. cbn. destruct (k x s); auto. Qed.
Lemma visits_parameters ps s :
  visits f (map (fun p => Expr (Name (fst p) (snd p))) ps) s = visits g (map parameter ps) s.
Proof.
  revert s. induction ps as [|p ps IH]; intros s; cbn [map visits]; auto. rewrite f_expr. unfold parameter at 1.
  destruct (g (Name (fst p) (snd p)) s); auto.
Qed.
Lemma visits_inline l : Forall (fun t => forall s, visits f (inline_stmt t) s = h t s) l ->
  forall s, visits f (flat_map inline_stmt l) s = visits h l s.
Proof.
  induction 1 as [|t l Ht _ IH]; intros s; cbn [flat_map visits]; auto. rewrite visits_app', Ht. destruct (h t s); auto.
Qed.
Lemma visits_define n ps b s : Forall (fun t => forall s, visits f (inline_stmt t) s = h t s) b ->
  visits f (inline_stmt (FDefine n ps b)) s =
  match visits g (map parameter ps) s with Some s1 => visits h b s1 | None => None end.
Proof.
  intros H. cbn [inline_stmt]. rewrite visits_app', visits_parameters. destruct (visits g (map parameter ps) s); auto. apply visits_inline; auto.
Qed.
Lemma visits_return e s : visits f (inline_stmt (FReturn e)) s = visit_returned g e s.
Proof. destruct e as [e|]; cbn [inline_stmt visit_returned]; auto. rewrite visits_one. apply f_expr. Qed.
End Visitor.

Lemma identify_inline_stmt (t : fstmt A) : forall s, visits identify_stmt (inline_stmt t) s = fidentify_stmt t s.
Proof.
  induction t as [v x e|e|c t f Ht Hf|c t f Ht Hf|n ps b Hb|e] using fstmt_induction; intros s.
  - cbn [inline_stmt]. rewrite visits_one. reflexivity.
  - cbn [inline_stmt]. rewrite visits_one. reflexivity.
  - cbn [inline_stmt]. rewrite visits_one. cbn [identify_stmt fidentify_stmt]. destruct (identify_expr c s) as [s1|]; auto.
    change (flat_map inline_stmt t) with (inline t). rewrite (visits_inline _ _ t Ht).
    destruct (visits fidentify_stmt t _) as [s2|]; auto. destruct (pop_scope (symbol_table s2)); auto. rewrite (visits_inline _ _ f Hf). auto.
  - cbn [inline_stmt]. rewrite visits_one. cbn [identify_stmt fidentify_stmt]. destruct (identify_expr c s) as [s1|]; auto.
    change (flat_map inline_stmt t) with (inline t). rewrite (visits_inline _ _ t Ht).
    destruct (visits fidentify_stmt t _) as [s2|]; auto. destruct (pop_scope (symbol_table s2)); auto. rewrite (visits_inline _ _ f Hf). auto.
  - rewrite (visits_define identify_expr identify_stmt fidentify_stmt); auto.
  - rewrite (visits_return identify_expr); auto.
Qed.
Lemma identify_inline (m : list (fstmt A)) s : identify_module (inline m) s = fidentify_module m s.
Proof.
  unfold identify_module, fidentify_module. destruct (empty (symbol_table s)); auto. unfold inline.
  rewrite (visits_inline _ fidentify_stmt); auto. apply Forall_forall. intros t _. apply identify_inline_stmt.
Qed.

Lemma io_inline_stmt (t : fstmt A) : forall s, visits io_stmt (inline_stmt t) s = fio_stmt t s.
Proof.
  induction t as [v x e|e|c t f Ht Hf|c t f Ht Hf|n ps b Hb|e] using fstmt_induction; intros s.
  - cbn [inline_stmt]. rewrite visits_one. reflexivity.
  - cbn [inline_stmt]. rewrite visits_one. reflexivity.
  - cbn [inline_stmt]. rewrite visits_one. cbn [io_stmt fio_stmt]. destruct (io_expr c s) as [s1|]; auto.
    rewrite (visits_inline _ _ t Ht). destruct (visits fio_stmt t s1); auto. apply visits_inline; auto.
  - cbn [inline_stmt]. rewrite visits_one. cbn [io_stmt fio_stmt]. destruct (io_expr c s) as [s1|]; auto.
    rewrite (visits_inline _ _ t Ht). destruct (visits fio_stmt t s1); auto. apply visits_inline; auto.
  - rewrite (visits_define io_expr io_stmt fio_stmt); auto.
  - rewrite (visits_return io_expr); auto.
Qed.
Lemma io_inline (m : list (fstmt A)) : io_module (inline m) = fio_module m.
Proof.
  unfold io_module, fio_module, inline. rewrite (visits_inline _ fio_stmt); auto. apply Forall_forall. intros t _. apply io_inline_stmt.
Qed.

Variable operations : string -> option aop.
Variable const_type : A -> expression_type.
Variable exec_operations : string -> option (op A).

Lemma annotate_inline_stmt (t : fstmt A) : forall s,
  visits (annotate_stmt operations const_type) (inline_stmt t) s = fannotate_stmt operations const_type t s.
Proof.
  induction t as [v x e|e|c t f Ht Hf|c t f Ht Hf|n ps b Hb|e] using fstmt_induction; intros s.
  - cbn [inline_stmt]. rewrite visits_one. reflexivity.
  - cbn [inline_stmt]. rewrite visits_one. reflexivity.
  - cbn [inline_stmt]. rewrite visits_one. cbn [annotate_stmt fannotate_stmt]. destruct (annotate_expr operations const_type c s) as [s1|]; auto.
    rewrite (visits_inline _ _ t Ht). destruct (visits (fannotate_stmt operations const_type) t s1); auto. apply visits_inline; auto.
  - cbn [inline_stmt]. rewrite visits_one. cbn [annotate_stmt fannotate_stmt]. destruct (annotate_expr operations const_type c s) as [s1|]; auto.
    rewrite (visits_inline _ _ t Ht). destruct (visits (fannotate_stmt operations const_type) t s1); auto. apply visits_inline; auto.
  - rewrite (visits_define (annotate_expr operations const_type) _ (fannotate_stmt operations const_type)); auto.
  - rewrite (visits_return (annotate_expr operations const_type)); auto.
Qed.
Lemma annotate_inline (m : list (fstmt A)) s :
  annotate_module operations const_type (inline m) s = visits (fannotate_stmt operations const_type) m s.
Proof. apply visits_inline. apply Forall_forall. intros t _. apply annotate_inline_stmt. Qed.

Notation all_of s l := (fold_right (fun a r => and_then (validate_stmt s a) r) Accepted l).
Notation fall_of s l := (fold_right (fun a r => and_then (fvalidate_stmt s a) r) Accepted l).
Lemma validate_inline_all s (l : list (fstmt A)) :
  Forall (fun t => all_of s (inline_stmt t) = fvalidate_stmt s t) l -> all_of s (flat_map inline_stmt l) = fall_of s l.
Proof. induction 1 as [|t l Ht _ IH]; cbn [flat_map fold_right]; auto. rewrite validate_app, Ht, IH. auto. Qed.
Lemma validate_inline_stmt s (t : fstmt A) : all_of s (inline_stmt t) = fvalidate_stmt s t.
Proof.
  induction t as [v x e|e|c t f Ht Hf|c t f Ht Hf|n ps b Hb|e] using fstmt_induction.
  - cbn [inline_stmt fold_right]. apply and_then_accepted.
  - cbn [inline_stmt fold_right]. apply and_then_accepted.
  - cbn [inline_stmt fold_right]. rewrite and_then_accepted. cbn [validate_stmt fvalidate_stmt].
    rewrite (validate_inline_all s t Ht), (validate_inline_all s f Hf). auto.
  - cbn [inline_stmt fold_right]. rewrite and_then_accepted. cbn [validate_stmt fvalidate_stmt].
    rewrite (validate_inline_all s t Ht), (validate_inline_all s f Hf). auto.
  - cbn [inline_stmt]. rewrite validate_app, (validate_inline_all s b Hb). cbn [fvalidate_stmt]. f_equal.
    clear. induction ps as [|p ps IH]; cbn [map fold_right]; auto. rewrite IH. auto.
  - destruct e as [e|]; cbn [inline_stmt fold_right]; auto. apply and_then_accepted.
Qed.
Lemma validate_inline s (m : list (fstmt A)) : validate_module s (inline m) = fvalidate_module s m.
Proof. apply validate_inline_all. apply Forall_forall. intros t _. apply validate_inline_stmt. Qed.

Lemma exec_inline_stmt (t : fstmt A) : forall s,
  visits (exec_stmt exec_operations) (inline_stmt t) s = fexec_stmt exec_operations t s.
Proof.
  induction t as [v x e|e|c t f Ht Hf|c t f Ht Hf|n ps b Hb|e] using fstmt_induction; intros s.
  - cbn [inline_stmt]. rewrite visits_one. reflexivity.
  - cbn [inline_stmt]. rewrite visits_one. reflexivity.
  - reflexivity.
  - reflexivity.
  - rewrite (visits_define (exec_expr exec_operations) _ (fexec_stmt exec_operations)); auto.
  - rewrite (visits_return (exec_expr exec_operations)); auto.
Qed.
Lemma exec_inline (m : list (fstmt A)) s : exec_module exec_operations (inline m) s = fexec_module exec_operations m s.
Proof.
  unfold exec_module, fexec_module. rewrite io_inline. destruct (fio_module m); auto.
  apply visits_inline. apply Forall_forall. intros t _. apply exec_inline_stmt.
Qed.

Lemma call_annotate_inline (m : list (fstmt A)) l i :
  call_annotate operations const_type (inline m) l i = fcall_annotate operations const_type m l i.
Proof. unfold call_annotate, fcall_annotate. destruct (add_global_symbols _ _); auto. rewrite annotate_inline. auto. Qed.
Lemma call_validate_inline (m : list (fstmt A)) l i :
  call_validate operations const_type (inline m) l i = fcall_validate operations const_type m l i.
Proof. unfold call_validate, fcall_validate. rewrite call_annotate_inline. destruct (fcall_annotate _ _ _ _ _); auto. rewrite validate_inline. auto. Qed.
Lemma call_execute_inline (m : list (fstmt A)) l names i :
  call_execute operations const_type exec_operations (inline m) l names i = fcall_execute operations const_type exec_operations m l names i.
Proof.
  unfold call_execute, fcall_execute. rewrite call_validate_inline. destruct (fcall_validate _ _ _ _ _) as [i'| |]; auto.
  destruct (set_data_source_symbols _ _); auto. rewrite exec_inline. auto.
Qed.

(** ** Scripts without functions; the names of functions *)
Lemma inline_plain (t : stmt A) : inline_stmt (plain_script t) = [t].
Proof.
  assert (H : forall l, Forall (fun t : stmt A => inline_stmt (plain_script t) = [t]) l -> flat_map inline_stmt (map plain_script l) = l).
  { induction 1 as [|a l Ha _ IH]; cbn [map flat_map]; auto. rewrite Ha, IH. auto. }
  induction t as [v x e|e|c t f Ht Hf|c t f Ht Hf] using stmt_induction; cbn [plain_script inline_stmt]; auto; rewrite (H t), (H f); auto.
Qed.
Lemma inline_plains (m : list (stmt A)) : inline (map plain_script m) = m.
Proof. induction m as [|t m IH]; auto. cbn [map]. unfold inline in *. cbn [flat_map]. rewrite IH, inline_plain. auto. Qed.
Lemma inline_renamed r (t : fstmt A) : inline_stmt (rename r t) = inline_stmt t.
Proof.
  assert (H : forall l, Forall (fun t : fstmt A => inline_stmt (rename r t) = inline_stmt t) l -> flat_map inline_stmt (map (rename r) l) = flat_map inline_stmt l).
  { induction 1 as [|a l Ha _ IH]; cbn [map flat_map]; auto. rewrite Ha, IH. auto. }
  induction t as [v x e|e|c t f Ht Hf|c t f Ht Hf|n ps b Hb|e] using fstmt_induction; cbn [rename inline_stmt]; auto.
  - rewrite (H t), (H f); auto.
  - rewrite (H t), (H f); auto.
  - rewrite (H b); auto.
Qed.
Lemma inline_renames r (m : list (fstmt A)) : inline (map (rename r) m) = inline m.
Proof. induction m as [|t m IH]; auto. cbn [map]. unfold inline in *. cbn [flat_map]. rewrite IH, inline_renamed. auto. Qed.

(** ** Accepted scripts *)
Notation validm := (valid_module operations const_type (@rev _)).
Lemma accepted_valid (m : list (fstmt A)) l i i' :
  (forall f o, operations f = Some o -> forall ts, length ts = length (op_parameters (signature o)) -> exists t, result_type o ts = Some t) ->
  annot_ready (annotator i) -> NoDup (map (fun p => fst (fst p)) l) -> unannotated (nodes (inline m)) (annotator i) ->
  fcall_validate operations const_type m l i = Done i' ->
  exists n, (forall x, n x = with_sources l (known_types (annotator i)) x) /\ validm n (straight (inline m)).
Proof.
  intros T R ND U E. rewrite <- call_validate_inline in E. unfold call_validate, call_annotate in E.
  assert (MF : map fst (source_types l) = map (fun p => fst (fst p)) l) by (unfold source_types; rewrite map_map; auto).
  destruct (add_sources (source_types l) (annotator i) R) as (s1 & E1 & R1 & T1 & O1 & K1); [rewrite MF; auto|].
  rewrite E1 in E. destruct (annotate_module operations const_type (inline m) s1) as [s2|] eqn:E2; [|discriminate]. cbn [annotator] in E.
  destruct (validate_module s2 (inline m)) eqn:V; try discriminate.
  exists (known_types s1). split; [exact K1|].
  apply (proj1 (C57_every_module A operations const_type (inline m) s1 T R1 (conj (proj1 U) (fun v I => eq_ind_r (fun f => f v = [] /\ operation_of s1 v = None)
    (eq_ind_r (fun g => types_of (annotator i) v = [] /\ g v = None) (proj2 U v I) O1) T1)))).
  exists s2. auto.
Qed.

(** All calls in a valid script are calls of operations. *)
Lemma valid_calls_in f n (e : expr A) : valid operations const_type (@rev _) n e -> calls_in f e -> operations f <> None.
Proof.
  induction e as [i x|i v|i g args IH|i e sel IHe IHs|i e mm IHe] using expr_induction; cbn [valid calls_in]; intros V C; try contradiction.
  destruct V as (VA & o & O & _). destruct C as [->|C]; [congruence|]. induction IH as [|a args Ha _ IH]; cbn in *; [contradiction|].
  destruct VA as [V1 V2]. destruct C as [C|C]; auto.
Qed.
Definition calls_stmt (f : string) (t : stmt A) : Prop := match t with Assign _ _ e | Expr e => calls_in f e | _ => False end.
Lemma valid_calls_stmts f (m : list (stmt A)) : forall n, validm n m -> Exists (calls_stmt f) m -> operations f <> None.
Proof.
  induction m as [|t m IH]; intros n V C; [inversion C|].
  destruct t as [v x e|e|c t u|c t u]; cbn in V; try contradiction; apply Exists_cons in C; destruct C as [C|C]; cbn in C.
  - apply (valid_calls_in f n e); tauto.
  - destruct V as (_ & t & _ & _ & V). eauto.
  - apply (valid_calls_in f n e); tauto.
  - destruct V as [_ V]. eauto.
Qed.
Lemma parts_call f (e : expr A) : calls_in f e -> Exists (calls_stmt f) (map Expr (parts e)).
Proof.
  induction e as [i x|i v|i g args IH|i e sel IHe IHs|i e mm IHe] using expr_induction; intros C; cbn [parts]; try (cbn in C; contradiction).
  - cbn [map]. constructor. exact C.
  - rewrite map_app. apply Exists_app. cbn in C. tauto.
  - cbn in C. auto.
Qed.
Lemma straight_app (m m' : list (stmt A)) : straight (m ++ m') = straight m ++ straight m'.
Proof. apply flat_map_app. Qed.
Lemma some_exists {X} (P : X -> Prop) l : fold_right (fun t Q => P t \/ Q) False l <-> Exists P l.
Proof. induction l as [|x l IH]; cbn; [rewrite Exists_nil; tauto|]. rewrite Exists_cons, IH. tauto. Qed.
Lemma calls_straight_all f (l : list (fstmt A)) :
  Forall (fun t => calls f t -> Exists (calls_stmt f) (straight (inline_stmt t))) l ->
  Exists (calls f) l -> Exists (calls_stmt f) (straight (flat_map inline_stmt l)).
Proof.
  induction 1 as [|t l Ht _ IH]; intros C; [inversion C|]. cbn [flat_map]. rewrite straight_app. apply Exists_app.
  apply Exists_cons in C. tauto.
Qed.
Lemma calls_straight f (t : fstmt A) : calls f t -> Exists (calls_stmt f) (straight (inline_stmt t)).
Proof.
  induction t as [v x e|e|c t u Ht Hu|c t u Ht Hu|n ps b Hb|e] using fstmt_induction; cbn [calls inline_stmt]; intros C.
  - constructor. exact C.
  - cbn. rewrite app_nil_r. apply parts_call. auto.
  - rewrite (some_exists (calls f)), (some_exists (calls f)) in C. cbn [straight flat_map straight_stmt]. rewrite app_nil_r. apply Exists_app. destruct C as [C|C].
    + left. apply parts_call; auto.
    + right. apply Exists_app. destruct C as [C|C]; [left; apply (calls_straight_all f t Ht C)|right; apply (calls_straight_all f u Hu C)].
  - rewrite (some_exists (calls f)), (some_exists (calls f)) in C. cbn [straight flat_map straight_stmt]. rewrite app_nil_r. apply Exists_app. destruct C as [C|C].
    + left. apply parts_call; auto.
    + right. apply Exists_app. destruct C as [C|C]; [left; apply (calls_straight_all f t Ht C)|right; apply (calls_straight_all f u Hu C)].
  - rewrite (some_exists (calls f)) in C. rewrite straight_app. apply Exists_app. right. apply (calls_straight_all f b Hb C).
  - destruct e as [e|]; [|contradiction]. cbn. rewrite app_nil_r. apply parts_call. auto.
Qed.

(** What is known later was known or is assigned in between. *)
Definition assigned (x : string) (t : stmt A) : Prop := match t with Assign _ y _ => y = x | _ => False end.
Lemma valid_split (m m' : list (stmt A)) : forall n, validm n (m ++ m') ->
  exists n', validm n' m' /\ forall x, n' x = n x \/ Exists (assigned x) m.
Proof.
  induction m as [|t m IH]; intros n V; [exists n; auto|].
  destruct t as [v x e|e|c t u|c t u]; cbn [app valid_module] in V; try contradiction.
  - destruct V as (_ & t & _ & _ & V). destruct (IH _ V) as (n' & V' & K). exists n'. split; auto. intros y. destruct (K y) as [K'|K'].
    + unfold set_type in K'. destruct (String.eqb_spec y x) as [EQ|]; auto. right. constructor. symmetry. exact EQ.
    + right. apply Exists_cons_tl. auto.
  - destruct V as (_ & V). destruct (IH _ V) as (n' & V' & K). exists n'. split; auto. intros y. destruct (K y) as [K'|K']; auto.
Qed.
Lemma parts_assign x (e : expr A) : ~ Exists (assigned x) (map Expr (parts e)).
Proof. intros H. apply Exists_exists in H. destruct H as (t & I & H). apply in_map_iff in I. destruct I as (p & <- & _). exact H. Qed.
Lemma assigned_straight_all x (l : list (fstmt A)) :
  Forall (fun t => Exists (assigned x) (straight (inline_stmt t)) -> assigns x t) l ->
  Exists (assigned x) (straight (flat_map inline_stmt l)) -> Exists (assigns x) l.
Proof.
  induction 1 as [|t l Ht _ IH]; cbn [flat_map]; intros C; [inversion C|]. rewrite straight_app in C. apply Exists_app in C.
  apply Exists_cons. tauto.
Qed.
Lemma assigned_straight x (t : fstmt A) : Exists (assigned x) (straight (inline_stmt t)) -> assigns x t.
Proof.
  induction t as [v y e|e|c t u Ht Hu|c t u Ht Hu|n ps b Hb|e] using fstmt_induction; cbn [assigns inline_stmt]; intros C.
  - cbn in C. inversion C as [? ? H|? ? H]; subst; [exact H|inversion H].
  - cbn in C. rewrite app_nil_r in C. apply parts_assign in C. contradiction.
  - rewrite !(some_exists (assigns x)). cbn [straight flat_map straight_stmt] in C. rewrite app_nil_r in C. apply Exists_app in C. destruct C as [C|C].
    { apply parts_assign in C. contradiction. }
    apply Exists_app in C. destruct C as [C|C]; [left; apply (assigned_straight_all x t Ht C)|right; apply (assigned_straight_all x u Hu C)].
  - rewrite !(some_exists (assigns x)). cbn [straight flat_map straight_stmt] in C. rewrite app_nil_r in C. apply Exists_app in C. destruct C as [C|C].
    { apply parts_assign in C. contradiction. }
    apply Exists_app in C. destruct C as [C|C]; [left; apply (assigned_straight_all x t Ht C)|right; apply (assigned_straight_all x u Hu C)].
  - rewrite (some_exists (assigns x)). rewrite straight_app in C. apply Exists_app in C. destruct C as [C|C]; [|apply (assigned_straight_all x b Hb C)].
    exfalso. clear - C. induction ps as [|p ps IH]; cbn in C; inversion C; subst; auto.
  - destruct e as [e|]; [|inversion C]. cbn in C. rewrite app_nil_r in C. apply parts_assign in C. contradiction.
Qed.

Lemma valid_parameters n ps (m : list (stmt A)) : validm n (straight (map (fun p => Expr (Name (fst p) (snd p))) ps ++ m)) ->
  forall p, In p ps -> et_defined (n (snd p)) = true.
Proof.
  induction ps as [|q ps IH]; intros V p I; [destruct I|]. cbn in V. destruct V as [V V']. destruct I as [<-|I]; auto.
Qed.

(** ** Names stay bound *)
Definition keeps (s s' : exec A) : Prop := ready s -> ready s' /\ forall x, bound_names s x <> None -> bound_names s' x <> None.
Lemma keeps_refl s : keeps s s. Proof. intros R. auto. Qed.
Lemma keeps_trans s1 s2 s3 : keeps s1 s2 -> keeps s2 s3 -> keeps s1 s3.
Proof. intros K1 K2 R. destruct (K1 R) as [R2 B2]. destruct (K2 R2) as [R3 B3]. auto. Qed.
Lemma keeps_same s s' : symbols s' = symbols s -> sources s' = sources s -> keeps s s'.
Proof. intros E1 E2 [R1 R2]. unfold ready, bound_names. rewrite E1, E2. auto. Qed.
Lemma visits_keeps {X} (f : X -> exec A -> option (exec A)) l :
  Forall (fun x => forall s s', f x s = Some s' -> keeps s s') l -> forall s s', visits f l s = Some s' -> keeps s s'.
Proof.
  induction 1 as [|x l Hx _ IH]; intros s s' E; cbn in E; [injection E as <-; apply keeps_refl|].
  destruct (f x s) as [s1|] eqn:E1; [|discriminate]. apply (keeps_trans s s1); auto.
Qed.
Lemma pop_same n : forall acc (s : exec A) vs s', pop_arguments n acc s = Some (vs, s') -> symbols s' = symbols s /\ sources s' = sources s.
Proof.
  induction n as [|n IH]; intros acc s vs s' E; cbn in E; [injection E as _ <-; auto|].
  destruct (stack s); [discriminate|]. destruct (IH _ _ _ _ E). auto.
Qed.
Lemma push_same rs : forall s : exec A, symbols (fold_left (fun s r => push r s) rs s) = symbols s /\ sources (fold_left (fun s r => push r s) rs s) = sources s.
Proof. induction rs as [|r rs IH]; intros s; cbn; auto. destruct (IH (push r s)) as [-> ->]. auto. Qed.
Lemma exec_name_keeps x s s' : exec_name x s = Some s' -> keeps s s'.
Proof.
  unfold exec_name. intros E. destruct (has_value (symbols s) x) eqn:H.
  - rewrite H in E. destruct (value (symbols s) x); [|discriminate]. injection E as <-. apply keeps_same; auto.
  - destruct (has_value (sources s) x); [|discriminate]. destruct (value (sources s) x) as [v|]; [|discriminate].
    destruct (add_value (symbols s) x v) as [t|] eqn:EA; [|discriminate].
    change (symbols (add_read (set_symbols s t) x)) with t in E.
    destruct (has_value t x); [|discriminate]. destruct (value t x) as [w|]; [|discriminate]. injection E as <-.
    intros [R1 R2]. destruct (add_value_one (symbols s) x v R1) as (t' & EA' & L & B). rewrite EA in EA'. injection EA' as <-.
    split; [split; auto|]. intros y. unfold bound_names. change (symbols (push w (add_read (set_symbols s t) x))) with t. rewrite B.
    destruct (String.eqb y x); auto. discriminate.
Qed.
Lemma exec_expr_keeps (e : expr A) : forall s s', exec_expr exec_operations e s = Some s' -> keeps s s'.
Proof.
  induction e as [i x|i v|i f args IH|i e sel IHe IHs|i e mm IHe] using expr_induction; intros s s' E; cbn [exec_expr] in E.
  - apply (exec_name_keeps x); auto.
  - injection E as <-. apply keeps_same; auto.
  - destruct (visits (exec_expr exec_operations) args s) as [s1|] eqn:V; [|discriminate].
    apply (keeps_trans s s1); [apply (visits_keeps _ args IH s s1 V)|].
    destruct (exec_operations f) as [o|]; [|discriminate]. destruct ((arity o <=? length (stack s1))%nat); [|discriminate].
    destruct (pop_arguments (length args) [] s1) as [[vs s2]|] eqn:P; [|discriminate]. destruct (execute o vs) as [rs|]; [|discriminate].
    injection E as <-. destruct (pop_same _ _ _ _ _ P) as [P1 P2]. destruct (push_same rs s2) as [Q1 Q2].
    apply keeps_same; congruence.
  - injection E as <-. apply keeps_refl.
  - auto.
Qed.
Lemma assign_binds v x e s s' : exec_stmt exec_operations (Assign v x e) s = Some s' ->
  keeps s s' /\ (ready s -> bound_names s' x <> None).
Proof.
  cbn [exec_stmt]. intros E. destruct (exec_expr exec_operations e s) as [s1|] eqn:E1; [|discriminate].
  destruct (stack s1) as [|w l]; [discriminate|].
  set (s2 := if existsb (Nat.eqb v) (outs s1) && existsb (String.eqb x) (syncs s1) then add_write s1 x w else s1) in E.
  assert (S2 : symbols s2 = symbols s1 /\ sources s2 = sources s1) by (subst s2; destruct (_ && _); auto). destruct S2 as [S2 S3].
  destruct (add_value (symbols s2) x w) as [t|] eqn:EA; [|discriminate]. injection E as <-.
  assert (K1 : keeps s s1) by (apply (exec_expr_keeps e); auto).
  assert (G : ready s -> scope_level t = 1 /\ sources s2 = sources s1 /\ (forall y, value t y = if String.eqb y x then Some w else value (symbols s1) y)).
  { intros R. destruct (K1 R) as [[R1 R2] _]. rewrite S2 in EA. destruct (add_value_one (symbols s1) x w R1) as (t' & EA' & L & B).
    rewrite EA in EA'. injection EA' as <-. auto. }
  split.
  - intros R. destruct (G R) as (L & _ & B). destruct (K1 R) as [[R1 R2] B1]. split.
    + split; cbn; auto. rewrite S3. auto.
    + intros y H. unfold bound_names. cbn [symbols set_stack set_symbols]. rewrite B. destruct (String.eqb y x); [discriminate|]. apply B1; auto.
  - intros R. destruct (G R) as (L & _ & B). unfold bound_names. cbn [symbols set_stack set_symbols]. rewrite B, String.eqb_refl. discriminate.
Qed.
Lemma fexec_keeps (t : fstmt A) : forall s s', fexec_stmt exec_operations t s = Some s' ->
  keeps s s' /\ (ready s -> forall x, assigns_here x t -> bound_names s' x <> None).
Proof.
  induction t as [v y e|e|c t u Ht Hu|c t u Ht Hu|n ps b Hb|e] using fstmt_induction; intros s s' E.
  - destruct (assign_binds v y e s s' E) as [K B]. split; auto. intros R x <-. auto.
  - split; [apply (exec_expr_keeps e); auto|]. intros _ x [].
  - cbn in E. injection E as <-. split; [apply keeps_refl|]. intros _ x [].
  - cbn in E. injection E as <-. split; [apply keeps_refl|]. intros _ x [].
  - cbn [fexec_stmt] in E. destruct (visits (exec_expr exec_operations) (map parameter ps) s) as [s1|] eqn:V; [|discriminate].
    assert (K1 : keeps s s1).
    { apply (visits_keeps (exec_expr exec_operations) (map parameter ps)); auto. apply Forall_forall. intros a _ r r'. apply exec_expr_keeps. }
    assert (G : forall b, Forall (fun t => forall s s', fexec_stmt exec_operations t s = Some s' ->
        keeps s s' /\ (ready s -> forall x, assigns_here x t -> bound_names s' x <> None)) b ->
      forall s1 s', visits (fexec_stmt exec_operations) b s1 = Some s' ->
      keeps s1 s' /\ (ready s1 -> forall x, Exists (assigns_here x) b -> bound_names s' x <> None)).
    { clear. induction 1 as [|t b Ht _ IH]; intros s1 s' E; cbn in E.
      - injection E as <-. split; [apply keeps_refl|]. intros _ x I. inversion I.
      - destruct (fexec_stmt exec_operations t s1) as [s2|] eqn:E2; [|discriminate]. destruct (Ht _ _ E2) as [K2 B2]. destruct (IH _ _ E) as [K3 B3].
        split; [apply (keeps_trans s1 s2); auto|]. intros R x I. destruct (K2 R) as [R2 _]. apply Exists_cons in I. destruct I as [I|I]; auto.
        destruct (K3 R2) as [_ K4]. auto. }
    destruct (G b Hb s1 s' E) as [K2 B2]. split; [apply (keeps_trans s s1); auto|]. intros R x I. destruct (K1 R) as [R1 _]. apply B2; auto.
    cbn [assigns_here] in I. apply some_exists in I. auto.
  - destruct e as [e|]; cbn in E.
    + split; [apply (exec_expr_keeps e); auto|]. intros _ x [].
    + injection E as <-. split; [apply keeps_refl|]. intros _ x [].
Qed.
Lemma fexec_all_keeps (m : list (fstmt A)) : forall s s', visits (fexec_stmt exec_operations) m s = Some s' ->
  ready s -> forall x, Exists (assigns_here x) m -> bound_names s' x <> None.
Proof.
  induction m as [|t m IH]; intros s s' E R x I; [inversion I|]. cbn in E. destruct (fexec_stmt exec_operations t s) as [s1|] eqn:E1; [|discriminate].
  destruct (fexec_keeps t s s1 E1) as [K B]. destruct (K R) as [R1 _]. apply Exists_cons in I. destruct I as [I|I]; [|apply (IH s1 s'); auto].
  assert (K2 : keeps s1 s') by (apply (visits_keeps (fexec_stmt exec_operations) m); auto; apply Forall_forall; intros a _ r r' H; apply (fexec_keeps a); auto).
  destruct (K2 R1) as [_ K3]. auto.
Qed.
End Proofs.
