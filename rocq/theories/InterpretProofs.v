(** * Proofs about the interpreter *)
From Coq Require Import String List Bool Arith NArith Lia.
From Verif Require Import AstModel SymbolModel SymbolProofs FlagModel FlagSpec FlagProofs AnnotateModel AnnotateSpec AnnotateProofs
  IoModel IoSpec IoProofs ExecModel ExecSpec ExecProofs ExecProps InterpretModel InterpretSpec.
Import ListNotations.

Section Proofs.
Context {A : Type}.
Variable operations : string -> option aop.
Variable const_type : A -> expression_type.
Variable exec_operations : string -> option (op A).
Variable is_of : A -> expression_type -> Prop.
Hypothesis SND : sound operations const_type exec_operations is_of.
Local Notation typ := (type_in operations const_type (@rev _)).
Local Notation problem := (problem_in operations const_type (@rev _)).

Lemma subset_count a b : is_subset_of a b = true -> (0 <? count a)%nat = true.
Proof.
  unfold is_subset_of, any. intros H. apply andb_true_iff in H as [H _]. apply negb_true_iff, N.eqb_neq in H.
  apply Nat.ltb_lt. destruct (count a) eqn:C; [|lia]. apply count_zero in C. congruence.
Qed.

Lemma accepted_defined p t : accepts_type p t = true -> et_defined t = true.
Proof.
  unfold accepts_type. intros H. apply existsb_exists in H as (q & _ & H). unfold et_is_satisfied_by in H.
  apply andb_true_iff in H as [H1 H2]. unfold et_defined. rewrite (subset_count _ _ H1), (subset_count _ _ H2). auto.
Qed.

Lemma all_some_length {X} (l : list (option X)) : forall xs, all_some l = Some xs -> length xs = length l.
Proof.
  induction l as [|[x|] l IH]; intros xs E; cbn in E; try discriminate.
  - injection E as <-. auto.
  - destruct (all_some l) as [ys|]; try discriminate. injection E as <-. cbn. rewrite IH; auto.
Qed.

(** An expression without problems has a value of its type. *)
Lemma sound_expr (n : typing) (b : env (A := A)) e :
  (forall x, et_defined (n x) = true -> exists v, b x = Some v /\ is_of v (n x)) -> simple e -> problem n e = None ->
  exists t, typ n e = Some t /\
    if et_defined t then exists v, values exec_operations b e = Some [v] /\ is_of v t
    else values exec_operations b e = Some [] \/ exists v, values exec_operations b e = Some [v] /\ is_of v t.
Proof.
  intros K. induction e as [i x|i v|i f args IH|i e sel IHe IHs|i e m IHe] using expr_induction; cbn [simple]; intros S P; try contradiction.
  - cbn in *. destruct (et_defined (n x)) eqn:D; try discriminate. destruct (K x D) as (v & V & T). exists (n x). split; auto. rewrite D, V. eauto.
  - cbn. exists (const_type v). split; auto. pose proof (proj1 SND v) as T. destruct (et_defined (const_type v)); eauto.
  - cbn [problem_in] in P. destruct (first_some (map (problem n) args)) eqn:FS; try discriminate.
    destruct (operations f) as [o|] eqn:F; try discriminate.
    destruct (Nat.eqb_spec (length args) (length (op_parameters (signature o)))) as [L|]; try discriminate.
    destruct (first_mismatch 1 (op_parameters (signature o)) (map (typ n) args)) eqn:M; try discriminate.
    assert (AR : exists ts vs, all_some (map (typ n) args) = Some ts /\ Forall2 is_of vs ts /\
      Forall2 (fun p t => accepts_type p t = true) (op_parameters (signature o)) ts /\
      one_each (map (values exec_operations b) args) = Some vs).
    { clear F P. generalize 1 M. clear M. revert L. generalize (op_parameters (signature o)) as ps.
      induction IH as [|a args Ha _ IH]; intros ps L k M.
      - destruct ps; try discriminate. exists [], []. repeat split; auto.
      - destruct ps as [|p ps]; try discriminate. cbn in L. injection L as L. cbn in S, FS. destruct S as [S1 S2].
        destruct (problem n a) eqn:PA; try discriminate. destruct (Ha S1 eq_refl) as (t & T & V). cbn in M. rewrite T in M.
        destruct (accepts_type p t) eqn:AC; try discriminate. rewrite (accepted_defined _ _ AC) in V. destruct V as (v & V & I).
        destruct (IH S2 FS ps L (Datatypes.S k) M) as (ts & vs & E1 & E2 & E3 & E4).
        exists (t :: ts), (v :: vs). cbn. rewrite T, E1, V, E4. repeat split; auto. }
    destruct AR as (ts & vs & E1 & E2 & E3 & E4). cbn [type_in values]. rewrite E1, F, <- L, Nat.eqb_refl.
    destruct (proj2 SND f o F) as (RV & TO & x & X & AX & EX).
    assert (LT : length ts = length (op_parameters (signature o))) by (rewrite <- L, (all_some_length _ _ E1), map_length; auto).
    rewrite (RV ts LT). destruct (TO ts LT) as [t T]. exists t. split; auto. specialize (EX vs ts t E2 E3 T).
    rewrite X, E4. assert (LV : length vs = arity x) by (rewrite AX, <- LT; clear - E2; induction E2; cbn; auto).
    rewrite LV, Nat.eqb_refl. destruct (et_defined t); auto.
Qed.

Lemma sound_stmts ins (m : list (stmt A)) : Forall simple_stmt m -> forall (n : typing) (b : env (A := A)),
  (forall x, et_defined (n x) = true -> exists v, known b ins x = Some v /\ is_of v (n x)) ->
  problem_of operations const_type (@rev _) n m = None ->
  exists b' rs ts n' us, meaning exec_operations ins b m = Some (b', rs, ts) /\
    types_after operations const_type (@rev _) n m = Some (n', us) /\
    (forall x, et_defined (n' x) = true -> exists v, known b' ins x = Some v /\ is_of v (n' x)).
Proof.
  induction 1 as [|t m St _ IH]; intros n b K P.
  - exists b, [], [], n, []. auto.
  - destruct t as [v x e|e|c t f|c t f]; cbn [simple_stmt] in St; try contradiction; cbn [problem_of] in P;
      destruct (problem n e) eqn:PE; try discriminate; destruct (sound_expr n (known b ins) e K St PE) as (t & T & V).
    + rewrite T in P. destruct (et_defined t) eqn:D; try discriminate. destruct V as (w & V & I).
      destruct (IH (set_type x t n) (bind_name x w b)) as (b' & rs & ts & n' & us & M & TA & K'); auto.
      { intros y DY. unfold known, bind_name, set_type in *. destruct (String.eqb y x); [eauto|]. apply K; auto. }
      cbn [meaning types_after]. rewrite V, M, T, TA. exists b', rs, ((v, x, w) :: ts), n', us. auto.
    + destruct (IH n b K P) as (b' & rs & ts & n' & us & M & TA & K'). cbn [meaning types_after]. rewrite M, T, TA.
      assert (VV : exists vs, values exec_operations (known b ins) e = Some vs).
      { destruct (et_defined t); [destruct V as (w & V & _); eauto|]. destruct V as [V|(w & V & _)]; eauto. }
      destruct VV as [vs ->]. exists b', (vs ++ rs)%list, ts, n', (t :: us). auto.
Qed.

(** ** Data sources *)
Lemma add_sources (pairs : scope expression_type) : forall s, annot_ready s -> NoDup (map fst pairs) ->
  exists s', add_global_symbols pairs s = Some s' /\ annot_ready s' /\ types_of s' = types_of s /\ operation_of s' = operation_of s /\
    forall x, known_types s' x = match scope_find pairs x with Some t => t | None => known_types s x end.
Proof.
  induction pairs as [|[y t] pairs IH]; intros s R N; unfold add_global_symbols; cbn [visits fst snd].
  - exists s. auto.
  - cbn in N. inversion N as [|? ? N1 N2]; subst. destruct (add_type_one (type_symbols s) y t R) as (tb & EA & L & B). rewrite EA.
    destruct (IH (set_type_symbols tb s) L N2) as (s' & E & R' & T & O & K). exists s'. split; auto. split; auto. split; auto. split; auto.
    intros x. rewrite K. cbn [scope_find]. assert (KT : known_types (set_type_symbols tb s) x = if String.eqb x y then t else known_types s x).
    { unfold known_types, name_type. cbn. rewrite B. destruct (String.eqb x y); auto. }
    rewrite KT. rewrite (String.eqb_sym y x). destruct (String.eqb_spec x y) as [EQ|]; auto. rewrite EQ.
    destruct (scope_find pairs y) eqn:F; auto. exfalso. apply N1. apply find_in. congruence.
Qed.

Lemma problems_or_types (n : typing) (e : expr A) : (forall f o, operations f = Some o -> forall ts, length ts = length (op_parameters (signature o)) -> exists t, result_type o ts = Some t) ->
  simple e -> exists t, typ n e = Some t.
Proof.
  intros TO. induction e as [i x|i v|i f args IH|i e sel IHe IHs|i e mm IHe] using expr_induction; cbn; intros SE; eauto; try contradiction.
  assert (TS : exists ts, all_some (map (typ n) args) = Some ts /\ length ts = length args).
  { induction IH as [|a args Ha _ IH]; cbn in *; [exists []; auto|]. destruct SE as [S1 S2]. destruct (Ha S1) as [t ->]. destruct (IH S2) as (ts & -> & L).
    exists (t :: ts). cbn. auto. }
  destruct TS as (ts & -> & L). destruct (operations f) as [o|] eqn:F; eauto.
  destruct (Nat.eqb_spec (length args) (length (op_parameters (signature o)))) as [E|]; eauto.
  apply (TO f o F). rewrite rev_length. congruence.
Qed.
Lemma types_total (m : list (stmt A)) : (forall f o, operations f = Some o -> forall ts, length ts = length (op_parameters (signature o)) -> exists t, result_type o ts = Some t) ->
  Forall simple_stmt m -> forall n, exists r, types_after operations const_type (@rev _) n m = Some r.
Proof.
  intros TO. induction 1 as [|t m St _ IH]; intros n; [eexists; reflexivity|].
  destruct t as [v x e|e|c t f|c t f]; cbn in *; try contradiction; destruct (problems_or_types n e TO St) as [t ->]; auto.
  destruct (IH n) as [[n' ts] ->]. eauto.
Qed.
End Proofs.
