(** * C47: the type of an operation's result *)
From Coq Require Import String Ascii List Bool Arith NArith Permutation Lia.
From Verif Require Import StringModel FlagModel FlagSpec FlagProofs.
Import ListNotations.

Lemma accepts_length op ts : accepts op ts -> length ts = length (op_parameters op).
Proof. unfold accepts. generalize (op_parameters op). induction 1; cbn; congruence. Qed.

Lemma supported_fixed op ts : accepts op ts ->
  supported et_value (map vt_flags ts) (op_parameters op) = Some (map vt_flags ts).
Proof.
  unfold accepts. generalize (op_parameters op). induction 1 as [|t p ts ps (e & -> & H) _ IH]; auto.
  cbn [map supported]. rewrite IH. cbn [option_map]. do 2 f_equal.
  apply vt_ext; auto using and_collection, vt_flags_collection. intros t'.
  rewrite vt_and, andb_true_iff, vt_flags_test. split; [tauto|]. intros ->. split; auto. apply vt_test_spec; auto.
Qed.

Lemma merged_parameters_defined op ts : accepts op ts ->
  forall r, exists m, merged_parameters et_value r (op_parameters op) = Some m.
Proof.
  unfold accepts. generalize (op_parameters op). induction 1 as [|t p ts ps (e & -> & H) _ IH]; intros r; cbn; eauto.
Qed.

Lemma merged_types ts t : vt_test (merged (map vt_flags ts)) t = true <-> In t ts.
Proof.
  rewrite vt_test_bit, merged_spec, existsb_exists. split.
  - intros (f & H & B). apply in_map_iff in H as (t' & <- & H). rewrite <- vt_test_bit in B.
    apply vt_flags_test in B. subst; auto.
  - intros H. exists (vt_flags t). split; [apply in_map; auto|]. rewrite <- vt_test_bit. apply vt_flags_test; auto.
Qed.

Lemma merged_fixed ts : fixed (merged (map vt_flags ts)) = true <->
  exists t, In t ts /\ (forall t', In t' ts -> t' = t) /\ merged (map vt_flags ts) = vt_flags t.
Proof.
  assert (C : collection value_types_size (merged (map vt_flags ts))).
  { apply merged_collection, Forall_forall. intros f H. apply in_map_iff in H as (t & <- & _). apply vt_flags_collection. }
  rewrite vt_fixed by auto. split; intros [t H]; exists t.
  - assert (M : forall t', In t' ts <-> t' = t) by (intros t'; rewrite <- merged_types, H; apply vt_flags_test).
    split; [apply M; auto|]. split; auto. intros t'. apply M.
  - tauto.
Qed.

Lemma flags_subset t a : is_subset_of (vt_flags t) a = true <-> has_type a t.
Proof.
  rewrite subset_spec, <- vt_test_spec, vt_test_bit.
  assert (B : forall p, bit (vt_flags t) p = true <-> p = value_type_number t).
  { intros p. split.
    - intros H. destruct (type_of_number p) as [t' <-]; [apply (collection_bit _ (vt_flags t)); auto using vt_flags_collection|].
      rewrite <- vt_test_bit in H. apply vt_flags_test in H. subst; auto.
    - intros ->. rewrite <- vt_test_bit. apply vt_flags_test; auto. }
  split.
  - intros [_ H]. apply H, B; auto.
  - intros H. split; [exists (value_type_number t); apply B; auto|]. intros p Hp. apply B in Hp. subst; auto.
Qed.

(** Arguments of two or more numeric types that the parameters accept and the result may have:
    the type of the result is the type of one of the arguments, and it outranks the types of
    the other arguments.  Except that 16 bit signed integers are forgotten: together with only
    8 bit types, the result is of an 8 bit type. *)
Theorem C47_value_type op i result ts :
  nth_error (op_results op) i = Some result -> fixed (et_value result) = false ->
  2 <= length ts -> accepts op ts -> Forall numeric ts ->
  (forall t, In t ts -> has_type (et_value result) t) ->
  exists t, result_value_type op i (map vt_flags ts) = Some (vt_flags t) /\ In t ts /\
    (~ short_and_byte ts -> forall t', In t' ts -> t' = t \/ outranks (kind_of t) (kind_of t')) /\
    (short_and_byte ts ->
      (t = VT_UINT8 \/ t = VT_INT8 /\ ~ In VT_UINT8 ts) /\ outranks (kind_of VT_INT16) (kind_of t)).
Proof.
  intros R F L A N S. unfold result_value_type. rewrite R, map_length, (accepts_length _ _ A), Nat.eqb_refl, F.
  cbn [negb]. replace (match map vt_flags ts with [a] => any a | _ => false end) with false
    by (destruct ts as [|? [|? ?]]; cbn in L; auto; lia).
  rewrite (supported_fixed _ _ A). destruct (merged_parameters_defined _ _ A no_flags) as [m ->].
  cbv zeta. rewrite Forall_forall in N. unfold numeric in N.
  destruct (fixed (merged (map vt_flags ts))) eqn:Fm.
  { apply merged_fixed in Fm as (t & H1 & H2 & ->). exists t. split; auto. split; auto. split.
    - intros _ t' H. auto.
    - intros (H3 & [H4|H4] & _); exfalso; apply H2 in H3; apply H2 in H4; congruence. }
  assert (M := fun t => proj1 (not_true_iff_false (vt_test (merged (map vt_flags ts)) t))).
  assert (M' := merged_types ts).
  assert (Fin : forall t, In t ts -> is_subset_of (vt_flags t) (et_value result) = true).
  { intros t H. apply flags_subset; auto. }
  unfold value_type_cases. cbn [find].
  set (v := vt_test (merged (map vt_flags ts))) in *.
  repeat match goal with
  | |- context [if v ?t then Some ?t else _] =>
      let E := fresh "E" in let I := fresh "I" in
      destruct (v t) eqn:E;
      [assert (I : In t ts) by (apply M'; auto); exists t; rewrite (Fin t I); split; [reflexivity|]; split; [exact I|]
      |assert (I : ~ In t ts) by (rewrite <- M'; congruence); clear E]
  end;
  try (split;
    [intros SB t' H; assert (Nt := N t' H); destruct t'; cbn in Nt |- *; try congruence; try contradiction;
      try (left; reflexivity); try (right; lia); try (right; exact Logic.I);
      try (exfalso; apply SB; split; [exact H|]; split; [auto|];
      intros t'' H''; assert (Nt'' := N t'' H''); destruct t''; cbn in Nt''; auto; try congruence; try contradiction)
    |intros (S1 & S2 & S3);
      match goal with I : In ?t ts |- _ => destruct (S3 t I) as [?|[?|?]]; try discriminate; cbn; split; auto; lia end]).
  exfalso. apply not_true_iff_false in Fm. apply Fm, merged_fixed.
  destruct ts as [|t ts]; [cbn in L; lia|]. assert (All : forall t', In t' (t :: ts) -> t' = VT_INT16).
  { intros t' H. assert (Nt := N t' H). destruct t'; cbn in Nt; auto; try congruence; contradiction. }
  assert (t = VT_INT16) by (apply All; cbn; auto). subst t. exists VT_INT16. split; [cbn; auto|]. split; auto.
  apply vt_ext; auto using vt_flags_collection.
  - apply merged_collection, Forall_forall. intros f H. apply in_map_iff in H as (t & <- & _). apply vt_flags_collection.
  - intros t. fold v. unfold v. rewrite merged_types, vt_flags_test. split; auto. intros ->; cbn; auto.
Qed.
Print Assumptions C47_value_type.

(** An operation whose result has one possible value type gives that one. *)
Theorem C47_fixed_result op i result args :
  nth_error (op_results op) i = Some result -> fixed (et_value result) = true ->
  length args = length (op_parameters op) ->
  result_value_type op i args = Some (et_value result).
Proof.
  intros R F L. unfold result_value_type. rewrite R, L, Nat.eqb_refl, F. auto.
Qed.
Print Assumptions C47_fixed_result.

(** The type of the argument of a unary operation is the type of its result, also if the
    operation's parameter does not accept it or the result can't have it. *)
Theorem C47_unary op i result a p :
  nth_error (op_results op) i = Some result -> fixed (et_value result) = false ->
  op_parameters op = [p] -> any a = true ->
  result_value_type op i [a] = Some a.
Proof.
  intros R F P A. unfold result_value_type. rewrite R, P, F, A. auto.
Qed.
Print Assumptions C47_unary.
Theorem C47_unary_refuted :
  exists op i result t,
    nth_error (op_results op) i = Some result /\
    result_value_type op i [vt_flags t] = Some (vt_flags t) /\ ~ has_type (et_value result) t /\
    ~ accepts op [t].
Proof.
  exists op_abs, 0, number_type, VT_STRING. split; [reflexivity|]. split; [reflexivity|].
  assert (N : ~ has_type (et_value number_type) VT_STRING) by (vm_compute; discriminate).
  split; auto. intros A. inversion A as [|? ? ? ? (e & E & H) ?]; subst. injection E as <-. auto.
Qed.
Print Assumptions C47_unary_refuted.

(** The order of the arguments does not matter. *)
Theorem C47_order op i ts ts' :
  Permutation ts ts' -> accepts op ts -> accepts op ts' ->
  result_value_type op i (map vt_flags ts) = result_value_type op i (map vt_flags ts').
Proof.
  intros P A A'. unfold result_value_type. destruct (nth_error _ _) as [result|]; auto.
  rewrite !map_length, (accepts_length _ _ A), (accepts_length _ _ A'), (supported_fixed _ _ A), (supported_fixed _ _ A').
  rewrite (merged_perm _ _ (Permutation_map vt_flags P)).
  destruct (negb _); auto. destruct (fixed (et_value result)); auto.
  destruct ts as [|t [|t2 ts]].
  - apply Permutation_nil in P as ->. auto.
  - apply Permutation_length_1_inv in P as ->. auto.
  - destruct ts' as [|x [|y ts']]; auto; apply Permutation_length in P; discriminate.
Qed.
Print Assumptions C47_order.

(** For all sets of types that the arguments may have, if all parameters are alike. *)
Theorem C47_order_sets op i e n args args' :
  op_parameters op = repeat [e] n -> Permutation args args' ->
  result_value_type op i args = result_value_type op i args' /\
  result_data_type op i args = result_data_type op i args'.
Proof.
  intros E P.
  assert (Len := Permutation_length P).
  assert (Sup : forall part args n, length args = n ->
    supported part args (repeat [e] n) = Some (map (fun a => flags_and a (part e)) args)).
  { clear. intros part args. induction args as [|a args IH]; intros n L; [destruct n; auto|].
    destruct n; [discriminate|]. cbn in *. rewrite IH by lia. auto. }
  unfold result_value_type, result_data_type. destruct (nth_error _ _) as [result|]; auto. rewrite Len.
  destruct (length args' =? length (op_parameters op)) eqn:L; auto. cbn [negb].
  apply Nat.eqb_eq in L. rewrite E, repeat_length in L. rewrite E, !Sup by lia. split.
  - destruct (fixed (et_value result)); auto. rewrite (merged_perm _ _ (Permutation_map _ P)).
    destruct args as [|t [|t2 ts]].
    + apply Permutation_nil in P as ->. auto.
    + apply Permutation_length_1_inv in P as ->. auto.
    + destruct args' as [|x [|y args']]; auto; discriminate.
  - destruct (fixed (et_data result)); auto. rewrite (merged_perm _ _ (Permutation_map _ P)). auto.
Qed.
Print Assumptions C47_order_sets.

(** If the result may have all types the parameters may have, then the types calculated for two
    or more arguments, or for arguments without a type, are types that the result may have. *)
Definition parameters_within (op : operation) (result : expression_type) : Prop :=
  Forall (fun p => exists e, p = [e] /\ (forall q, bit (et_value e) q = true -> bit (et_value result) q = true))
    (op_parameters op).

Theorem C47_allowed op i result args r :
  nth_error (op_results op) i = Some result -> any (et_value result) = true -> parameters_within op result ->
  (length args <> 1 \/ args = [no_flags]) ->
  result_value_type op i args = Some r -> is_subset_of r (et_value result) = true.
Proof.
  intros R Any W L H. unfold result_value_type in H. rewrite R in H.
  destruct (negb _); [discriminate|]. destruct (fixed (et_value result)) eqn:F.
  { injection H as <-. apply subset_spec. split; auto. apply any_spec; auto. }
  replace (match args with [a] => any a | _ => false end) with false in H
    by (destruct L as [L| ->]; [destruct args as [|a [|? ?]]; auto; cbn in L; congruence|auto]).
  destruct (supported et_value args (op_parameters op)) as [types|] eqn:S; [|discriminate]. cbv zeta in H.
  destruct (fixed (merged types)) eqn:Fm.
  - injection H as <-. apply fixed_spec in Fm as [p Hp]. apply subset_spec.
    assert (B : bit (merged types) p = true) by (apply Hp; auto). split; [eauto|].
    intros q Hq. apply Hp in Hq. subst q. rewrite merged_spec in B. apply existsb_exists in B as (f & Hf & Bf).
    clear Hp Any R F L. revert types S Hf. unfold parameters_within in W. revert args.
    induction W as [|x ps (e & -> & He) _ IH]; intros args types S Hf.
    + destruct args; [injection S as <-; destruct Hf|discriminate].
    + destruct args as [|a args]; [injection S as <-; destruct Hf|]. cbn in S.
      destruct (supported et_value args ps) as [l|] eqn:Sl; [|discriminate]. injection S as <-.
      destruct Hf as [<-|Hf].
      * rewrite bit_and in Bf. apply andb_true_iff in Bf. apply He; tauto.
      * apply (IH args l); auto.
  - destruct (merged_parameters _ _ _); [|discriminate].
    destruct (match find _ _ with Some _ => _ | None => _ end) as [r'|]; [|discriminate].
    destruct (is_subset_of r' (et_value result)) eqn:Sub; [|discriminate]. congruence.
Qed.
Print Assumptions C47_allowed.

(** Without known types of the arguments, the result may have each type a parameter may have. *)
Theorem C47_unknown_arguments op i result ps :
  nth_error (op_results op) i = Some result -> fixed (et_value result) = false ->
  op_parameters op = map (fun e => [e]) ps -> ps <> [] ->
  any (merged (map et_value ps)) = true -> parameters_within op result ->
  exists r, result_value_type op i (repeat no_flags (length ps)) = Some r /\
    forall p, bit r p = true <-> exists e, In e ps /\ bit (et_value e) p = true.
Proof.
  intros R F P N A W. exists (merged (map et_value ps)). split.
  - unfold result_value_type. rewrite R, P, repeat_length, map_length, Nat.eqb_refl, F. cbn [negb].
    replace (match repeat no_flags (length ps) with [a] => any a | _ => false end) with false
      by (destruct ps as [|? [|? ?]]; auto).
    assert (Sup : forall ps, supported et_value (repeat no_flags (length ps)) (map (fun e => [e]) ps) =
      Some (repeat no_flags (length ps))).
    { clear. induction ps as [|p ps IH]; auto. cbn. rewrite IH. auto. }
    assert (Mg : forall ps r, merged_parameters et_value r (map (fun e => [e]) ps) =
      Some (fold_left flags_or (map et_value ps) r)).
    { clear. induction ps as [|p ps IH]; intros r; auto. cbn. apply IH. }
    assert (Z : merged (repeat no_flags (length ps)) = no_flags).
    { clear. unfold merged. generalize (length ps). induction n; auto. }
    rewrite Sup, Mg. cbv zeta. rewrite Z. change (fixed no_flags) with false. cbv iota.
    change (find (vt_test no_flags) value_type_cases) with (@None value_type).
    change (flags_eq no_flags vts_unknown) with true. cbv iota.
    fold (merged (map et_value ps)).
    replace (is_subset_of (merged (map et_value ps)) (et_value result)) with true; auto. symmetry.
    apply subset_spec. split; [apply any_spec; auto|]. intros p Hp. rewrite merged_spec in Hp.
    apply existsb_exists in Hp as (f & Hf & B). apply in_map_iff in Hf as (e & <- & He).
    unfold parameters_within in W. rewrite P in W. rewrite Forall_forall in W.
    destruct (W [e]) as (e' & E & H); [apply in_map_iff; eauto|]. injection E as <-. auto.
  - intros p. rewrite merged_spec, existsb_exists. split.
    + intros (f & Hf & B). apply in_map_iff in Hf as (e & <- & He). eauto.
    + intros (e & He & B). exists (et_value e). split; auto. apply in_map; auto.
Qed.
Print Assumptions C47_unknown_arguments.

(** The result is a static field if one of the arguments is, and a constant otherwise. *)
Definition accepts_data (op : operation) (ds : list data_type) : Prop :=
  Forall2 (fun d p => exists e, p = [e] /\ has_data (et_data e) d) ds (op_parameters op).

Lemma dt_cases a : collection data_types_size a ->
  a = no_flags \/ a = dt_flags DT_CONSTANT \/ a = dt_flags DT_STATIC_FIELD \/ a = dts_all.
Proof.
  unfold collection. intros H. change (2 ^ N.of_nat data_types_size)%N with 4%N in H.
  destruct a as [|[[p|p|]|[p|p|]|]]; try lia; vm_compute; auto.
Qed.

Lemma data_supported op ds : accepts_data op ds ->
  supported et_data (map dt_flags ds) (op_parameters op) = Some (map dt_flags ds) /\
  (forall r, exists m, merged_parameters et_data r (op_parameters op) = Some m) /\
  length ds = length (op_parameters op).
Proof.
  unfold accepts_data. generalize (op_parameters op).
  induction 1 as [|d p ds ps (e & -> & H) _ (IH1 & IH2 & IH3)]; [cbn; eauto|].
  cbn [map supported merged_parameters length]. rewrite IH1. split; [|auto]. cbn [option_map]. do 2 f_equal.
  assert (C : collection data_types_size (flags_and (dt_flags d) (et_data e))) by (apply and_collection, make_collection).
  apply bit_ext. intros p. rewrite bit_and, andb_true_iff. split; [tauto|]. intros B. split; auto.
  assert (p < data_types_size) by (apply (collection_bit _ (dt_flags d)); auto; apply make_collection).
  assert (p = data_type_number d); [|subst; unfold has_data, has, test in H; destruct d; injection H; auto].
  clear - B H0. unfold data_types_size in H0. cbn in H0. destruct p as [|[|p]]; [..|lia]; destruct d; auto; discriminate B.
Qed.

Theorem C47_data_type op i result ds :
  nth_error (op_results op) i = Some result -> fixed (et_data result) = false ->
  ds <> [] -> accepts_data op ds -> (forall d, In d ds -> has_data (et_data result) d) ->
  result_data_type op i (map dt_flags ds) =
  Some (dt_flags (if in_dec (fun a b : data_type => ltac:(decide equality)) DT_STATIC_FIELD ds
                  then DT_STATIC_FIELD else DT_CONSTANT)).
Proof.
  intros R F N A S. destruct (data_supported _ _ A) as (S1 & S2 & L). destruct (S2 no_flags) as [m Hm].
  unfold result_data_type. rewrite R, map_length, L, Nat.eqb_refl, F, S1, Hm. cbn [negb]. cbv zeta.
  assert (D : forall d, dt_test (merged (map dt_flags ds)) d = true <-> In d ds).
  { intros d. assert (E : forall a, dt_test a d = bit a (data_type_number d)) by (intros a; destruct d; reflexivity).
    rewrite E, merged_spec, existsb_exists. split.
    - intros (f & Hf & B). apply in_map_iff in Hf as (d' & <- & H). destruct d, d'; auto; discriminate B.
    - intros H. exists (dt_flags d). split; [apply in_map; auto|]. destruct d; reflexivity. }
  assert (Sub : forall d, has_data (et_data result) d -> is_subset_of (dt_flags d) (et_data result) = true).
  { intros d H. apply subset_spec. unfold has_data, has, test in H. split.
    - exists (data_type_number d). destruct d; reflexivity.
    - intros p B. assert (p = data_type_number d).
      { assert (p < data_types_size) by (apply (collection_bit _ (dt_flags d)); auto; apply make_collection).
        clear - B H0. unfold data_types_size in H0. cbn in H0. destruct p as [|[|p]]; [..|lia]; destruct d; auto; discriminate B. }
      subst. destruct d; injection H; auto. }
  destruct (in_dec _ DT_STATIC_FIELD ds) as [I|I].
  - rewrite (proj2 (D _) I), Sub by auto. auto.
  - replace (dt_test _ DT_STATIC_FIELD) with false by (symmetry; apply not_true_iff_false; rewrite D; auto).
    assert (C : In DT_CONSTANT ds) by (destruct ds as [|[|] ds]; [congruence|cbn; auto|destruct I; cbn; auto]).
    rewrite (proj2 (D _) C), Sub by auto. auto.
Qed.
Print Assumptions C47_data_type.

(** Adding two values. *)
Theorem C47_add d1 t1 d2 t2 :
  numeric t1 -> numeric t2 ->
  exists d t,
    standard_expression_type op_add 0
      [{| et_data := dt_flags d1; et_value := vt_flags t1 |};
       {| et_data := dt_flags d2; et_value := vt_flags t2 |}] =
    Some {| et_data := dt_flags d; et_value := vt_flags t |} /\
    (d = DT_STATIC_FIELD <-> d1 = DT_STATIC_FIELD \/ d2 = DT_STATIC_FIELD) /\
    (t = t1 \/ t = t2) /\
    (~ short_and_byte [t1; t2] -> forall t', t' = t1 \/ t' = t2 -> t' = t \/ outranks (kind_of t) (kind_of t')).
Proof.
  intros N1 N2.
  assert (Num : forall t, numeric t -> has_type (et_value number_type) t).
  { intros t H. unfold numeric in H. destruct t; cbn in H; try congruence; reflexivity. }
  destruct (C47_value_type op_add 0 number_type [t1; t2]) as (t & E & I & O & _).
  - reflexivity.
  - reflexivity.
  - cbn; lia.
  - repeat constructor; exists number_type; auto.
  - auto.
  - intros t [<-|[<-|[]]]; auto.
  - assert (D : result_data_type op_add 0 (map dt_flags [d1; d2]) =
      Some (dt_flags (match d1, d2 with DT_CONSTANT, DT_CONSTANT => DT_CONSTANT | _, _ => DT_STATIC_FIELD end)))
      by (destruct d1, d2; reflexivity).
    exists (match d1, d2 with DT_CONSTANT, DT_CONSTANT => DT_CONSTANT | _, _ => DT_STATIC_FIELD end), t.
    unfold standard_expression_type. cbn [map et_data et_value] in *. rewrite E, D. split.
    + unfold make_expression_type. replace (flags_ne (vt_flags t) vts_unknown) with true by (destruct t; reflexivity).
      destruct d1, d2; reflexivity.
    + split; [destruct d1, d2; intuition discriminate|]. cbn in I. split; [intuition|].
      intros SB t' H. apply O; auto. cbn. intuition.
Qed.
Print Assumptions C47_add.

(** 16 bit and 8 bit integers add up to 8 bit integers; 16 bit integers and characters can't be
    combined at all by an operation that accepts both. *)
Theorem C47_short_refuted :
  ~ (forall t1 t2, numeric t1 -> numeric t2 ->
     exists t, result_value_type op_add 0 [vt_flags t1; vt_flags t2] = Some (vt_flags t) /\
       forall t', t' = t1 \/ t' = t2 -> t' = t \/ outranks (kind_of t) (kind_of t')).
Proof.
  intros H. destruct (H VT_INT16 VT_INT8) as (t & E & O); try (intros X; discriminate X).
  assert (t = VT_INT8).
  { injection E as E. destruct t; try discriminate E; reflexivity. }
  subst. destruct (O VT_INT16 (or_introl eq_refl)) as [X|X]; [discriminate X|]. cbn in X. lia.
Qed.
Print Assumptions C47_short_refuted.

Example C47_case :
  accepts op_add [VT_INT32; VT_FLOAT32] /\ numeric VT_INT32 /\ numeric VT_FLOAT32 /\
  result_value_type op_add 0 [vt_flags VT_INT32; vt_flags VT_FLOAT32] = Some (vt_flags VT_FLOAT32) /\
  result_value_type op_add 0 [vt_flags VT_UINT8; vt_flags VT_INT16] = Some (vt_flags VT_UINT8) /\
  result_value_type op_add 0 [vt_flags VT_INT16; vt_flags VT_INT16] = Some (vt_flags VT_INT16) /\
  result_value_type op_add 0 [no_flags; no_flags] = Some vts_number /\
  result_value_type op_int32 0 [vt_flags VT_FLOAT64] = Some (vt_flags VT_INT32) /\
  result_data_type op_add 0 [dt_flags DT_CONSTANT; dt_flags DT_STATIC_FIELD] = Some (dt_flags DT_STATIC_FIELD) /\
  parameters_within op_add number_type /\ op_parameters op_add = repeat [number_type] 2.
Proof.
  split; [repeat constructor; exists number_type; split; reflexivity|]. split; [intros X; discriminate X|].
  split; [intros X; discriminate X|]. repeat (split; [reflexivity|]). split; [|reflexivity]. repeat constructor; exists number_type; auto.
Qed.
