(** * C49: the types of expressions *)
From Coq Require Import String List Bool Arith NArith Lia Permutation.
From Verif Require Import AstModel SymbolModel SymbolProofs FlagModel FlagSpec FlagProofs AnnotateModel AnnotateSpec AnnotateProofs.
Import ListNotations.
Open Scope string_scope.
Open Scope list_scope.

(** Annotation gives every vertex of a module without control flow, subscripts and attributes one
    type: the one that follows from the types of the names so far, if operations get the types of
    their arguments from the last to the first.  It fails exactly if some operation that is called
    with the right number of arguments has no type for them.  The types of the names assigned are
    remembered, and the vertices of other modules are left alone. *)
Theorem C49_types (A : Type) (operations : string -> option aop) (const_type : A -> expression_type) (m : list (stmt A)) (s : annot) :
  Forall simple_stmt m -> annot_ready s -> unannotated (nodes m) s ->
  match types_after operations const_type (@rev _) (known_types s) m with
  | Some (n', ts) =>
      exists s', annotate_module operations const_type m s = Some s' /\ annot_ready s' /\
        (forall x, known_types s' x = n' x) /\
        types_stack s' = rev ts ++ types_stack s /\
        map fst (module_types operations const_type (@rev _) (known_types s) m) = nodes m /\
        (forall v o, In (v, o) (module_types operations const_type (@rev _) (known_types s) m) ->
           exists t, o = Some t /\ types_of s' v = [t]) /\
        (forall v, ~ In v (nodes m) -> types_of s' v = types_of s v /\ operation_of s' v = operation_of s v)
  | None => annotate_module operations const_type m s = None
  end.
Proof.
  intros S R U. pose proof (stmts_annotated operations const_type m S (known_types s) s R U (fun _ => eq_refl)) as H.
  destruct (types_after operations const_type (@rev _) (known_types s) m) as [[n' ts]|] eqn:E; auto.
  destruct H as (s' & E' & R' & N' & K' & [A1 A2] & _). pose proof (module_types_nodes operations const_type m S _ _ E) as MN.
  exists s'. split; auto. split; auto. split; auto. split; auto. split; auto. split; auto. intros v I. apply A1. rewrite MN. auto.
Qed.
Print Assumptions C49_types.

(** If no operation minds the direction of its arguments, these are the types that follow when
    operations get the types of their arguments from the first to the last. *)
Theorem C49_symmetric (A : Type) (operations : string -> option aop) (const_type : A -> expression_type) :
  (forall f o, operations f = Some o -> reversible o) ->
  (forall n e, type_in operations const_type (@rev _) n e = type_in operations const_type (fun ts => ts) n e) /\
  (forall n m, module_types operations const_type (@rev _) n m = module_types operations const_type (fun ts => ts) n m) /\
  (forall n m, types_after operations const_type (@rev _) n m = types_after operations const_type (fun ts => ts) n m).
Proof.
  intros H.
  assert (E : forall n e, type_in operations const_type (@rev _) n e = type_in operations const_type (fun ts => ts) n e).
  { intros n e. induction e as [i x|i v|i f args IH|i e sel IHe IHs|i e m IHe] using expr_induction; auto. cbn.
    assert (M : map (type_in operations const_type (@rev _) n) args = map (type_in operations const_type (fun ts => ts) n) args).
    { induction IH as [|a args Ha _ IH]; cbn; auto. rewrite Ha, IH. auto. }
    rewrite M. destruct (all_some _) as [ts|] eqn:TS; auto. destruct (operations f) as [o|] eqn:F; auto.
    destruct (Nat.eqb_spec (length args) (length (op_parameters (signature o)))) as [L|]; auto. apply (H f o F).
    rewrite <- L. clear - TS. revert ts TS. induction args as [|a args IH]; intros ts TS.
    - injection TS as <-. auto.
    - cbn in TS. destruct (type_in _ _ _ n a); try discriminate. destruct (all_some _) as [ts'|]; try discriminate. injection TS as <-.
      cbn. rewrite IH; auto. }
  assert (EM : forall n e, expr_types operations const_type (@rev _) n e = expr_types operations const_type (fun ts => ts) n e).
  { intros n e. induction e as [i x|i v|i f args IH|i e sel IHe IHs|i e m IHe] using expr_induction; auto.
    cbn [expr_types]. rewrite E. f_equal. induction IH as [|a args Ha _ IH]; cbn; auto. rewrite Ha, IH. auto. }
  split; auto. split.
  - intros n m. revert n. induction m as [|[v x e|e|c t f|c t f] m IH]; intros n; cbn; auto; rewrite ?E, ?EM.
    + destruct (type_in _ _ _ n e); auto. rewrite IH. auto.
    + rewrite IH. auto.
  - intros n m. revert n. induction m as [|[v x e|e|c t f|c t f] m IH]; intros n; cbn; auto; rewrite ?E.
    + destruct (type_in _ _ _ n e); auto.
    + destruct (type_in _ _ _ n e); auto. rewrite IH. auto.
Qed.
Print Assumptions C49_symmetric.

Lemma supported_equal part e : forall args k, length args = k ->
  supported part args (repeat [e] k) = Some (map (fun a => flags_and a (part e)) args).
Proof. intros args k <-. induction args as [|a args IH]; cbn; auto. rewrite IH. auto. Qed.

Lemma merged_rev (l : list flags) : merged (rev l) = merged l.
Proof. apply merged_perm. apply Permutation_sym, Permutation_rev. Qed.

(** The standard calculation of the type does not mind the direction if all parameters are of the
    same type. *)
Theorem C49_standard (op : operation) (e : expression_type) (k : nat) :
  op_parameters op = repeat [e] k -> reversible (standard_aop op).
Proof.
  intros P ts L. cbn in *. rewrite P, repeat_length in L. unfold standard_expression_type. rewrite !map_rev.
  assert (D : result_data_type op 0 (rev (map et_data ts)) = result_data_type op 0 (map et_data ts)).
  { unfold result_data_type. destruct (nth_error (op_results op) 0); auto. rewrite rev_length.
    destruct (negb _); auto. destruct (fixed _); auto. rewrite P, !supported_equal by (rewrite ?rev_length, map_length; auto).
    rewrite map_rev, merged_rev. auto. }
  assert (V : result_value_type op 0 (rev (map et_value ts)) = result_value_type op 0 (map et_value ts)).
  { unfold result_value_type. destruct (nth_error (op_results op) 0); auto. rewrite rev_length.
    destruct (negb _); auto. destruct (fixed _); auto. rewrite P, !supported_equal by (rewrite ?rev_length, map_length; auto).
    assert (O : (match rev (map et_value ts) with [a] => any a | _ => false end) = (match map et_value ts with [a] => any a | _ => false end)
      /\ (match map et_value ts with [a] => rev (map et_value ts) = map et_value ts | _ => True end)).
    { destruct (map et_value ts) as [|a [|b l]]; auto. split; auto.
      destruct (rev (a :: b :: l)) as [|c [|d l']] eqn:R; auto. exfalso. apply (f_equal (@length _)) in R. rewrite rev_length in R. discriminate. }
    destruct O as [O1 O2]. rewrite O1. destruct (match map et_value ts with [a] => any a | _ => false end) eqn:O.
    - destruct (map et_value ts) as [|a [|b l]]; try discriminate. rewrite O2. auto.
    - rewrite map_rev, merged_rev. auto. }
  rewrite D, V. auto.
Qed.
Print Assumptions C49_standard.

Lemma merged_parameters_equal part e : forall k r, (0 < k)%nat -> merged_parameters part r (repeat [e] k) = Some (flags_or r (part e)).
Proof.
  induction k as [|k IH]; intros r K; [lia|]. cbn [repeat merged_parameters]. destruct k as [|k]; auto.
  rewrite IH by lia. f_equal. unfold flags_or. rewrite <- N.lor_assoc, N.lor_diag. auto.
Qed.

Lemma supported_in (part : expression_type -> flags) e args p : bit (merged (map (fun a => flags_and a (part e)) args)) p = true -> bit (part e) p = true.
Proof.
  rewrite merged_spec. intros H. apply existsb_exists in H as (f & I & B). apply in_map_iff in I as (a & <- & _).
  rewrite bit_and in B. apply andb_true_iff in B as [_ B]. auto.
Qed.

Lemma data_total args e : et_data e = dts_all ->
  let m := merged (map (fun a => flags_and a (et_data e)) args) in
  exists r, (if dt_test m DT_STATIC_FIELD then Some (dt_flags DT_STATIC_FIELD)
             else if dt_test m DT_CONSTANT then Some (dt_flags DT_CONSTANT)
             else if flags_eq m dts_unknown then Some (flags_or no_flags (et_data e)) else None) = Some r /\
    is_subset_of r dts_all = true /\ flags_ne r dts_unknown = true.
Proof.
  intros E m. rewrite E. destruct (dt_test m DT_STATIC_FIELD) eqn:T1; [eexists; split; [reflexivity|split; reflexivity]|].
  destruct (dt_test m DT_CONSTANT) eqn:T2; [eexists; split; [reflexivity|split; reflexivity]|].
  assert (M : m = dts_unknown).
  { apply bit_ext. intros p. rewrite bit_none. split; [|discriminate]. intros B. exfalso.
    assert (P : bit dts_all p = true) by (apply (supported_in et_data e) in B; rewrite E in B; auto).
    assert (p = 0 \/ p = 1) as [-> | ->].
    { assert (p < 2); [|lia]. apply (collection_bit 2 dts_all p); auto. reflexivity. }
    - change (dt_test m DT_CONSTANT) with (bit m 0) in T2. congruence.
    - change (dt_test m DT_STATIC_FIELD) with (bit m 1) in T1. congruence. }
  rewrite M. cbn. eexists; split; [reflexivity|split; reflexivity].
Qed.

Lemma value_total args e : et_value e = vts_number ->
  let m := merged (map (fun a => flags_and a (et_value e)) args) in
  fixed m = false ->
  exists r, (match find (vt_test m) value_type_cases with
             | Some t => Some (vt_flags t)
             | None => if flags_eq m vts_unknown then Some (flags_or no_flags (et_value e)) else None end) = Some r /\
    is_subset_of r vts_number = true /\ flags_ne r vts_unknown = true.
Proof.
  intros E m F. rewrite E. destruct (find (vt_test m) value_type_cases) as [t|] eqn:FD.
  - apply find_some in FD as [I _]. eexists; split; [reflexivity|]. cbn in I.
    repeat (destruct I as [<-|I]; [split; reflexivity|]). destruct I.
  - assert (M : m = vts_unknown).
    { pose proof (find_none _ _ FD) as NO.
      assert (B : forall p, bit m p = true -> p = 5).
      { intros p B. assert (P : bit vts_number p = true) by (apply (supported_in et_value e) in B; rewrite E in B; auto).
        assert (L : p < 13) by (apply (collection_bit 13 vts_number p); [reflexivity|auto]).
        destruct (type_of_number p L) as [t <-]. 
        assert (NT : In t value_type_cases -> False).
        { intros I. specialize (NO t I). rewrite vt_test_bit in NO. congruence. }
        destruct t; try discriminate P; auto; exfalso; apply NT; cbn; tauto. }
      destruct (bit m 5) eqn:B5.
      - exfalso. assert (fixed m = true); [|congruence]. apply fixed_spec. exists 5. intros q. split; [auto|intros ->; auto].
      - apply bit_ext. intros p. rewrite bit_none. split; [|discriminate]. intros X. rewrite (B p X) in X. congruence. }
    rewrite M. cbn. eexists; split; [reflexivity|split; reflexivity].
Qed.

Lemma fixed_nonzero a : fixed a = true -> flags_ne a vts_unknown = true.
Proof.
  unfold fixed, flags_ne. destruct (N.eqb_spec a vts_unknown) as [->|]; auto.
Qed.

(** Every operation of the library has a type for arguments of any types, right or wrong, and does
    not mind the direction. *)
Theorem C49_library (f : string) (o : aop) (ts : list expression_type) :
  library f = Some o -> length ts = length (op_parameters (signature o)) ->
  (exists t, result_type o ts = Some t) /\ reversible o.
Proof.
  assert (ST : forall op k, (0 < k)%nat -> op_parameters op = repeat [number_type] k ->
    (exists r, op_results op = [r] /\ et_data r = dts_all /\ (et_value r = vts_number \/ fixed (et_value r) = true)) ->
    length ts = length (op_parameters op) -> exists t, standard_expression_type op 0 ts = Some t).
  { intros op k K P (r & R & RD & RV) L. rewrite P, repeat_length in L. unfold standard_expression_type.
    assert (D : exists d, result_data_type op 0 (map et_data ts) = Some d /\ flags_ne d dts_unknown = true).
    { unfold result_data_type. rewrite R. cbn [nth_error]. rewrite map_length, P, repeat_length, L, Nat.eqb_refl. cbn [negb].
      rewrite RD. change (fixed dts_all) with false. cbv iota. rewrite supported_equal by (rewrite map_length; auto).
      rewrite merged_parameters_equal by auto. cbv zeta.
      destruct (data_total (map et_data ts) number_type eq_refl) as (d & -> & S & N). rewrite S. eauto. }
    assert (V : exists v, result_value_type op 0 (map et_value ts) = Some v /\ flags_ne v vts_unknown = true).
    { unfold result_value_type. rewrite R. cbn [nth_error]. rewrite map_length, P, repeat_length, L, Nat.eqb_refl. cbn [negb].
      destruct (fixed (et_value r)) eqn:FX. { exists (et_value r). split; auto. apply fixed_nonzero; auto. }
      destruct RV as [RV|]; [|discriminate].
      destruct (match map et_value ts with [a] => any a | _ => false end) eqn:O.
      - destruct (map et_value ts) as [|a [|b l]]; try discriminate. exists a. split; auto.
      - rewrite supported_equal by (rewrite map_length; auto). cbv zeta.
        destruct (fixed (merged _)) eqn:FM. { eexists; split; [reflexivity|]. apply fixed_nonzero; auto. }
        rewrite merged_parameters_equal by auto.
        destruct (value_total (map et_value ts) number_type eq_refl FM) as (v & -> & S & N). rewrite RV, S. eauto. }
    destruct D as (d & -> & D), V as (v & -> & V). unfold make_expression_type. rewrite D, V. cbn. eauto. }
  unfold library. intros F L.
  destruct (String.eqb f "abs"); [injection F as <-; split; [apply (ST op_abs 1); auto; try lia; eexists; split; [reflexivity|split; auto]
                                                            |apply (C49_standard op_abs number_type 1); auto]|].
  destruct (String.eqb f "add"); [injection F as <-; split; [apply (ST op_add 2); auto; try lia; eexists; split; [reflexivity|split; auto]
                                                            |apply (C49_standard op_add number_type 2); auto]|].
  destruct (String.eqb f "int32"); [injection F as <-; split; [apply (ST op_int32 1); auto; try lia; eexists; split; [reflexivity|split; auto]
                                                            |apply (C49_standard op_int32 number_type 1); auto]|].
  destruct (String.eqb f "read"); [injection F as <-; split; [eexists; reflexivity|intros x _; reflexivity]|].
  destruct (String.eqb f "write"); [injection F as <-; split; [eexists; reflexivity|intros x _; reflexivity]|].
  discriminate.
Qed.
Print Assumptions C49_library.

(** So with the operations of the library annotation never fails, whatever is written in the
    module, and finds the types that follow from the arguments as they are written. *)
Theorem C49_library_types (A : Type) (const_type : A -> expression_type) (m : list (stmt A)) (s : annot) :
  Forall simple_stmt m -> annot_ready s -> unannotated (nodes m) s ->
  exists s' n' ts, annotate_module library const_type m s = Some s' /\
    types_after library const_type (fun ts => ts) (known_types s) m = Some (n', ts) /\
    (forall x, known_types s' x = n' x) /\
    (forall v o, In (v, o) (module_types library const_type (fun ts => ts) (known_types s) m) ->
       exists t, o = Some t /\ types_of s' v = [t]).
Proof.
  intros S R U.
  destruct (C49_symmetric A library const_type (fun f o F => proj2 (C49_library f o (map (fun _ => default_expression_type) (op_parameters (signature o))) F (map_length _ _))))
    as (_ & EM & EA).
  pose proof (C49_types A library const_type m s S R U) as H. rewrite EA, EM in H.
  assert (T : exists r, types_after library const_type (fun ts => ts) (known_types s) m = Some r).
  { assert (TE : forall n (e : expr A), simple e -> exists t, type_in library const_type (fun ts => ts) n e = Some t).
    { intros n e. induction e as [i x|i v|i f args IH|i e sel IHe IHs|i e mm IHe] using expr_induction; cbn; intros SE; eauto; try contradiction.
      assert (TS : exists ts, all_some (map (type_in library const_type (fun ts => ts) n) args) = Some ts /\ length ts = length args).
      { induction IH as [|a args Ha _ IH]; cbn in *; [exists []; auto|]. destruct SE as [S1 S2]. destruct (Ha S1) as [t ->]. destruct (IH S2) as (ts & -> & L).
        exists (t :: ts). cbn. auto. }
      destruct TS as (ts & -> & L). destruct (library f) as [o|] eqn:F; eauto.
      destruct (Nat.eqb_spec (length args) (length (op_parameters (signature o)))) as [E|]; eauto.
      apply (C49_library f o ts F). congruence. }
    clear - TE S. generalize (known_types s) as n. induction S as [|t m St _ IH]; intros n; [exists (n, []); auto|].
    destruct t as [v x e|e|c t f|c t f]; cbn in *; try contradiction; destruct (TE n e St) as [t ->]; auto.
    destruct (IH n) as [[n' ts] ->]. eauto. }
  destruct T as [[n' ts] T]. rewrite T in H. destruct H as (s' & E & _ & N & _ & _ & M & _). exists s', n', ts. auto.
Qed.
Print Assumptions C49_library_types.

(** With other operations it does matter: [scale] takes a number and a string, and returns a
    number.  Its type for an integer and a string is an integer, but annotation of [scale(5, "m")]
    fails. *)
Definition op_scale : operation :=
  {| op_parameters := [[number_type]; [string_type]]; op_results := [number_type] |}.
Definition scale_operations (f : string) : option aop :=
  if String.eqb f "scale" then Some (standard_aop op_scale) else None.
Definition int64_type : expression_type := {| et_data := dt_flags DT_CONSTANT; et_value := vt_flags VT_INT64 |}.
Definition case_type (c : nat) : expression_type := if Nat.eqb c 0 then string_type else int64_type.
Definition scale_module : list (stmt nat) := [Assign 1 "r" (Operation 2 "scale" [Const 3 5; Const 4 0])].
Theorem C49_refuted :
  Forall simple_stmt scale_module /\ unannotated (nodes scale_module) annot_initial /\
  type_in scale_operations case_type (fun ts => ts) (known_types annot_initial)
    (Operation 2 "scale" [Const 3 5; Const 4 0]) = Some int64_type /\
  accepts_type [number_type] (case_type 5) = true /\ accepts_type [string_type] (case_type 0) = true /\
  annotate_module scale_operations case_type scale_module annot_initial = None.
Proof.
  split; [repeat constructor|]. split; [split; [cbn; repeat constructor; cbn; lia|intros; split; reflexivity]|].
  repeat split; vm_compute; reflexivity.
Qed.
Print Assumptions C49_refuted.

(** [c = add(a, abs(5)); write(c, "x", "y")], where [a] is known to be a field of 32-bit
    floating point numbers. *)
Definition field_type : expression_type := {| et_data := dt_flags DT_STATIC_FIELD; et_value := vt_flags VT_FLOAT32 |}.
Definition typed_module : list (stmt nat) :=
  [Assign 1 "c" (Operation 2 "add" [Name 3 "a"; Operation 4 "abs" [Const 5 5]]);
   Expr (Operation 6 "write" [Name 7 "c"; Const 8 0; Const 9 0])].
Example C49_case :
  exists s, add_global_symbols [("a", field_type)] annot_initial = Some s /\
    Forall simple_stmt typed_module /\ annot_ready s /\ unannotated (nodes typed_module) s /\
    option_map (fun s' => (map (types_of s') (nodes typed_module), known_types s' "c")) (annotate_module library case_type typed_module s) =
      Some ([[field_type]; [int64_type]; [int64_type]; [field_type]; [field_type];
             [field_type]; [string_type]; [string_type]; [default_expression_type]], field_type).
Proof.
  eexists. split; [reflexivity|]. split; [repeat constructor|]. split; [reflexivity|].
  split; [split; [cbn; repeat constructor; cbn; lia|intros; split; reflexivity]|]. vm_compute. reflexivity.
Qed.
