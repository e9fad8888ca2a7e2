(** * C46: collections of flags and expression types *)
From Coq Require Import String Ascii List Bool Arith NArith Lia.
From Verif Require Import StringModel StringSpec StringProofs FlagModel FlagSpec FlagProofs.
Import ListNotations.

Theorem C46_set_operations size a b :
  collection size a -> collection size b ->
  collection size (flags_and a b) /\ collection size (flags_or a b) /\
  collection size (flags_xor a b) /\
  (forall p, has size (flags_and a b) p <-> has size a p /\ has size b p) /\
  (forall p, has size (flags_or a b) p <-> has size a p \/ has size b p) /\
  (forall p, has size (flags_xor a b) p <-> (has size a p <-> ~ has size b p)) /\
  (flags_eq a b = true <-> forall p, has size a p <-> has size b p) /\
  (flags_ne a b = true <-> ~ forall p, has size a p <-> has size b p) /\
  (forall p, ~ has size no_flags p).
Proof.
  intros A B.
  assert (H1 := and_collection size a b A). assert (H2 := or_collection size a b A B).
  assert (H3 := xor_collection size a b A B).
  assert (E : a = b <-> forall p, has size a p <-> has size b p).
  { split; [intros ->; tauto|]. apply has_ext; auto. }
  do 3 (split; auto). repeat split.
  - apply has_bit in H; auto. rewrite bit_and in H. apply andb_true_iff in H. apply has_bit; tauto.
  - apply has_bit in H; auto. rewrite bit_and in H. apply andb_true_iff in H. apply has_bit; tauto.
  - intros [X Y]. apply has_bit in X, Y; auto. apply has_bit; auto. rewrite bit_and, X, Y; auto.
  - intros X. apply has_bit in X; auto. rewrite bit_or in X. apply orb_true_iff in X.
    rewrite !has_bit by auto. auto.
  - intros X. rewrite !has_bit in X by auto. apply has_bit; auto. rewrite bit_or. apply orb_true_iff; auto.
  - intros X Y. rewrite has_bit in * by auto. rewrite bit_xor in H.
    destruct (bit a p), (bit b p); cbn in *; congruence.
  - intros X. rewrite has_bit in * by auto. rewrite bit_xor in H.
    destruct (bit a p), (bit b p); cbn in *; congruence.
  - intros X. rewrite !has_bit in * by auto. rewrite bit_xor.
    destruct (bit a p), (bit b p); cbn in *; intuition congruence.
  - unfold flags_eq in H. apply N.eqb_eq in H. subst; auto.
  - unfold flags_eq in H. apply N.eqb_eq in H. subst; auto.
  - intros X. apply N.eqb_eq, E; auto.
  - intros H X. apply E in X. unfold flags_ne in H. rewrite X, N.eqb_refl in H. discriminate.
  - intros X. unfold flags_ne. apply negb_true_iff, N.eqb_neq. intros ->. apply X; tauto.
  - intros p X. unfold has, test in X. destruct (p <? size); [|discriminate].
    injection X as X. change (bit no_flags p = true) in X. rewrite bit_none in X. discriminate.
Qed.
Print Assumptions C46_set_operations.

(** [count] is the number of flags in the collection, [none], [any] and [fixed] tell whether it
    is zero, positive or one. *)
Theorem C46_count size a :
  collection size a ->
  (exists l, NoDup l /\ length l = count a /\ forall p, In p l <-> has size a p) /\
  (none a = true <-> forall p, ~ has size a p) /\
  (any a = true <-> exists p, has size a p) /\
  (fixed a = true <-> exists p, has size a p /\ forall q, has size a q -> q = p).
Proof.
  intros C. split; [|split; [|split]].
  - exists (bits a). split; [apply NoDup_bits|]. split; [apply length_bits|].
    intros p. rewrite has_bit by auto. apply in_bits.
  - assert (A := any_spec a). unfold any in A. unfold none. destruct (N.eqb a 0).
    + split; auto. intros _ p H. apply has_bit in H; auto. discriminate (proj2 A (ex_intro _ p H)).
    + split; [discriminate|]. intros H. destruct (proj1 A eq_refl) as [p Hp]. exfalso.
      apply (H p). apply has_bit; auto.
  - rewrite any_spec. split; intros [p H]; exists p; apply has_bit in H || apply has_bit; auto.
  - rewrite fixed_spec. split; intros [p H]; exists p.
    + split; [apply has_bit; auto; apply H; auto|]. intros q Hq. apply has_bit in Hq; auto. apply H; auto.
    + destruct H as [H1 H2]. intros q. rewrite <- (has_bit size) by auto. split; auto. intros ->; auto.
Qed.
Print Assumptions C46_count.

(** A collection is a subset of another if it is not empty and all its flags are in the other. *)
Theorem C46_subset size a b c :
  collection size a -> collection size b -> collection size c ->
  (is_subset_of a b = true <->
     (exists p, has size a p) /\ forall p, has size a p -> has size b p) /\
  (is_subset_of a b = true -> is_subset_of b c = true -> is_subset_of a c = true) /\
  (is_subset_of a b = true -> is_subset_of b a = true -> a = b).
Proof.
  intros A B C. split; [|split].
  - rewrite subset_spec. split; intros [[p H] I].
    + split; [exists p; apply has_bit; auto|]. intros q Hq. apply has_bit in Hq; auto. apply has_bit; auto.
    + split; [exists p; apply has_bit in H; auto|]. intros q Hq. apply (has_bit size); auto. apply I, has_bit; auto.
  - rewrite !subset_spec. intros [H I] [_ J]. split; auto.
  - rewrite !subset_spec. intros [H I] [_ J]. apply bit_ext. split; auto.
Qed.
Print Assumptions C46_subset.

(** The names of groups of value types stand for these groups. *)
Theorem C46_value_type_groups t :
  (has_type vts_unsigned_integer t <-> exists w, kind_of t = Unsigned w) /\
  (has_type vts_signed_integer t <-> exists w, kind_of t = Signed w) /\
  (has_type vts_integer t <-> exists w, kind_of t = Unsigned w \/ kind_of t = Signed w) /\
  (has_type vts_floating_point t <-> exists w, kind_of t = Floating w) /\
  (has_type vts_number t <-> numeric t) /\ has_type vts_all t /\ ~ has_type vts_unknown t /\
  (has_type vts_size t <-> t = VT_UINT64) /\
  (forall t', has_type (vt_flags t') t <-> t = t').
Proof.
  assert (D : forall a, has_type a t <-> vt_test a t = true) by (intros; symmetry; apply vt_test_spec).
  rewrite !D. repeat split; intros;
    try (apply D, vt_flags_test in H; auto; fail); try (apply D, vt_flags_test; auto; fail);
    revert H || idtac; destruct t; vm_compute;
    repeat match goal with
    | |- _ -> _ => intro
    | H : ex _ |- _ => destruct H
    | H : _ \/ _ |- _ => destruct H
    end; try discriminate; try reflexivity; eauto; try congruence.
Qed.
Print Assumptions C46_value_type_groups.

(** An expression type is satisfied by another one if that has data and value types and all of
    them are possible; this is transitive. *)
Definition well_formed (e : expression_type) : Prop :=
  collection data_types_size (et_data e) /\ collection value_types_size (et_value e).
Definition satisfies (e this : expression_type) : Prop :=
  (exists p, has data_types_size (et_data e) p) /\
  (exists p, has value_types_size (et_value e) p) /\
  (forall p, has data_types_size (et_data e) p -> has data_types_size (et_data this) p) /\
  (forall p, has value_types_size (et_value e) p -> has value_types_size (et_value this) p).

Theorem C46_satisfaction this e :
  well_formed this -> well_formed e ->
  (et_is_satisfied_by this e = true <-> satisfies e this) /\
  (et_defined e = true <-> satisfies e e) /\
  (et_fixed e = true -> et_is_satisfied_by this e = true ->
   exists p q, has data_types_size (et_data this) p /\ has value_types_size (et_value this) q /\
     (forall p', has data_types_size (et_data e) p' <-> p' = p) /\
     (forall q', has value_types_size (et_value e) q' <-> q' = q)).
Proof.
  intros [D1 V1] [D2 V2].
  assert (S : et_is_satisfied_by this e = true <-> satisfies e this).
  { unfold et_is_satisfied_by, satisfies. rewrite andb_true_iff.
    rewrite (proj1 (C46_subset _ _ _ _ D2 D1 D1)), (proj1 (C46_subset _ _ _ _ V2 V1 V1)). tauto. }
  split; auto. split.
  - unfold et_defined, satisfies. rewrite andb_true_iff, !Nat.ltb_lt.
    assert (P : forall size a, collection size a -> (0 < count a <-> exists p, has size a p)).
    { intros size a C. rewrite <- (proj1 (proj2 (proj2 (C46_count size a C)))). unfold any.
      rewrite negb_true_iff, N.eqb_neq. generalize (count_zero a). destruct (count a); split; intros; try lia; intuition. }
    rewrite !(P _ _ D2), !(P _ _ V2). tauto.
  - intros F. rewrite S. intros (_ & _ & I & J). unfold et_fixed in F. apply andb_true_iff in F as [F1 F2].
    apply (C46_count _ _ D2) in F1 as (p & Hp & Up). apply (C46_count _ _ V2) in F2 as (q & Hq & Uq).
    exists p, q. split; auto. split; auto. split; intros x; split; auto; intros ->; auto.
Qed.
Print Assumptions C46_satisfaction.

(** The first expression type that satisfies one of the parameter's types is found. *)
Theorem C46_satisfying_types this types :
  Forall well_formed this -> Forall well_formed types ->
  (forall e, In e types -> (forall t, In t this -> ~ satisfies e t)) /\
    id_of_satisfying_type this types = length types /\ ets_is_satisfied_by this types = false
  \/
  (exists l e r t, types = l ++ e :: r /\ In t this /\ satisfies e t /\
     (forall e', In e' l -> forall t', In t' this -> ~ satisfies e' t') /\
     id_of_satisfying_type this types = length l /\ ets_is_satisfied_by this types = true).
Proof.
  intros W1 W2. rewrite Forall_forall in *.
  assert (One : forall e, well_formed e -> (ets_is_satisfied_by_one this e = true <-> exists t, In t this /\ satisfies e t)).
  { intros e We. unfold ets_is_satisfied_by_one. rewrite existsb_exists.
    split; intros (t & H1 & H2); exists t; split; auto; apply (C46_satisfaction t e); auto. }
  assert (L : forall l1 l2 i n, types = l1 ++ l2 -> (forall e, In e l2 -> ets_is_satisfied_by_one this e = false) ->
    id_loop this l2 i n = n).
  { intros l1 l2. revert l1. induction l2 as [|e l2 IH]; intros l1 i n E H; auto. cbn.
    rewrite H by (cbn; auto). apply (IH (l1 ++ [e])); [rewrite <- app_assoc; auto|]. intros; apply H; cbn; auto. }
  assert (Split : (forall e, In e types -> ets_is_satisfied_by_one this e = false) \/
    exists l e r, types = l ++ e :: r /\ ets_is_satisfied_by_one this e = true /\
      (forall e', In e' l -> ets_is_satisfied_by_one this e' = false)).
  { clear. induction types as [|e types IH]; [left; intros e []|].
    destruct (ets_is_satisfied_by_one this e) eqn:E.
    - right. exists [], e, types. repeat split; auto. intros e' [].
    - destruct IH as [H|(l & x & r & -> & H1 & H2)].
      + left. intros x [<-|Hx]; auto.
      + right. exists (e :: l), x, r. repeat split; auto. intros y [<-|Hy]; auto. }
  destruct Split as [H|(l & e & r & E & H1 & H2)].
  - left. split.
    + intros e He t Ht S. specialize (H e He). apply not_true_iff_false in H. apply H, One; eauto.
    + unfold ets_is_satisfied_by, id_of_satisfying_type. rewrite (L [] types) by auto.
      split; auto. apply Nat.ltb_irrefl.
  - right. assert (We : well_formed e) by (apply W2; rewrite E; apply in_or_app; cbn; auto).
    destruct (proj1 (One e We) H1) as (t & Ht & S). exists l, e, r, t. split; auto. split; auto. split; auto.
    split.
    + intros e' He' t' Ht' S'. specialize (H2 e' He'). apply not_true_iff_false in H2.
      apply H2, One; eauto. apply W2. rewrite E. apply in_or_app; auto.
    + assert (Id : id_of_satisfying_type this types = length l).
      { unfold id_of_satisfying_type. rewrite E at 1. clear - H1 H2. rewrite <- (Nat.add_0_l (length l)).
        generalize 0, (length types). induction l as [|x l IH]; intros i n; cbn [app id_loop].
        - rewrite H1. cbn. lia.
        - rewrite H2 by (cbn; auto). rewrite IH by (intros; apply H2; cbn; auto). cbn. lia. }
      split; auto. unfold ets_is_satisfied_by. rewrite Id. apply Nat.ltb_lt. rewrite E, app_length. cbn. lia.
Qed.
Print Assumptions C46_satisfying_types.

(** Names of value types: printing gives the names in the order of the types; different
    collections print differently; a single type can be read back; other collections can't. *)
Definition types_in (a : flags) : list value_type := filter (fun t => vt_test a t) value_type_list.
Lemma value_types_printed a :
  value_types_to_string a = Some (join_names (map value_type_name (types_in a))).
Proof.
  unfold value_types_to_string. cbn [Nat.eqb length value_type_list value_types_size value_type_number].
  rewrite (set_names_spec value_types_size value_type_number value_type_name a value_type_list)
    by (intros t _; destruct t; unfold value_types_size; cbn; lia).
  reflexivity.
Qed.

Lemma value_type_list_full t : In t value_type_list.
Proof. destruct t; cbn; tauto. Qed.

Lemma value_type_name_inj t t' : value_type_name t = value_type_name t' -> t = t'.
Proof. destruct t, t'; cbn; congruence. Qed.

Lemma value_type_name_plain t :
  value_type_name t <> [] /\ ~ In "|"%char (value_type_name t) /\ value_type_name t <> lit "?".
Proof. destruct t; cbn; (split; [discriminate|split; [intuition discriminate|discriminate]]). Qed.

Lemma types_in_spec a t : vt_test a t = true <-> In t (types_in a).
Proof. unfold types_in. rewrite filter_In. split; [split; auto using value_type_list_full|tauto]. Qed.
Opaque types_in.

Lemma value_types_read s f : value_types_from_string s = Some f -> ~ In "|"%char s /\ s <> lit "?".
Proof.
  unfold value_types_from_string. intros H. assert (F : find_string value_type_by_string s = Some f) by (destruct s; [discriminate|auto]).
  apply find_string_in in F. unfold value_type_by_string in F. cbn [In] in F.
  repeat (destruct F as [F|F]; [injection F as <- _; cbn; split; [intuition discriminate|discriminate]|]). destruct F.
Qed.

Theorem C46_value_type_names a b :
  collection value_types_size a -> collection value_types_size b ->
  (exists s, value_types_to_string a = Some s) /\
  (value_types_to_string a = value_types_to_string b -> a = b) /\
  (forall s, value_types_to_string a = Some s ->
     if fixed a then value_types_from_string s = Some a else value_types_from_string s = None).
Proof.
  intros A B. rewrite !value_types_printed. split; [eauto|].
  assert (M := types_in_spec).
  split.
  - intros E. injection E as E.
    apply printed_inj in E; auto using value_type_name_inj, value_type_name_plain.
    apply vt_ext; auto. intros t. rewrite !M, E. reflexivity.
  - intros s E. injection E as <-. destruct (fixed a) eqn:Fx.
    + apply vt_fixed in Fx as [t ->]; auto. destruct t; vm_compute; reflexivity.
    + destruct (value_types_from_string _) as [f|] eqn:Ff; auto. exfalso.
      apply value_types_read in Ff as (N1 & N2). apply printed_single in N1 as [t Ht]; auto.
      assert (fixed a = true); [|congruence]. apply vt_fixed; auto. exists t.
      apply vt_ext; auto using vt_flags_collection. intros t'. rewrite vt_flags_test, M, Ht. cbn. intuition.
Qed.
Print Assumptions C46_value_type_names.

(** The names that can be read. *)
Theorem C46_value_type_parsing s a :
  value_types_from_string s = Some a <->
  (exists t, s = value_type_name t /\ a = vt_flags t) \/
  (s = lit "Size" /\ a = vts_size) \/ (s = lit "Number" /\ a = vts_number) \/
  (s = lit "All" /\ a = vts_all).
Proof.
  split.
  - intros H. assert (In (s, a) value_type_by_string).
    { apply find_string_in. unfold value_types_from_string in H. destruct s; [discriminate|auto]. }
    unfold value_type_by_string in H0. cbn [In] in H0.
    repeat (destruct H0 as [H0|H0]; [injection H0 as <- <-;
      first [ right; left; split; reflexivity | right; right; left; split; reflexivity
            | right; right; right; split; reflexivity
            | left; first [ exists VT_BOOL; split; reflexivity | exists VT_CHAR; split; reflexivity | exists VT_UINT8; split; reflexivity | exists VT_INT8; split; reflexivity | exists VT_UINT16; split; reflexivity
                | exists VT_INT16; split; reflexivity | exists VT_UINT32; split; reflexivity | exists VT_INT32; split; reflexivity | exists VT_UINT64; split; reflexivity
                | exists VT_INT64; split; reflexivity | exists VT_FLOAT32; split; reflexivity | exists VT_FLOAT64; split; reflexivity | exists VT_STRING; split; reflexivity ] ] |]).
    destruct H0.
  - intros [(t & -> & ->)|[[-> ->]|[[-> ->]|[-> ->]]]]; [destruct t; vm_compute; reflexivity|vm_compute; reflexivity..].
Qed.
Print Assumptions C46_value_type_parsing.

Theorem C46_data_type_names a b :
  collection data_types_size a -> collection data_types_size b ->
  (exists s, data_types_to_string a = Some s) /\
  (data_types_to_string a = data_types_to_string b -> a = b) /\
  (forall s, data_types_to_string a = Some s ->
     if fixed a then data_types_from_string s = Some a else data_types_from_string s = None).
Proof.
  unfold collection. change (2 ^ N.of_nat data_types_size)%N with 4%N. intros A B.
  assert (D : forall c, (c < 4)%N -> (c = 0 \/ c = 1 \/ c = 2 \/ c = 3)%N).
  { clear. intros c H. destruct c as [|[[p|p|]|[p|p|]|]]; lia. }
  apply D in A, B. split; [|split].
  - destruct A as [-> | [-> | [-> | ->]]]; eexists; reflexivity.
  - destruct A as [-> | [-> | [-> | ->]]], B as [-> | [-> | [-> | ->]]]; vm_compute; congruence.
  - intros s. destruct A as [-> | [-> | [-> | ->]]]; vm_compute; intros E; injection E as <-; reflexivity.
Qed.
Print Assumptions C46_data_type_names.

Example C46_case :
  collection value_types_size vts_number /\ count vts_number = 10 /\ fixed vts_number = false /\
  is_subset_of vts_integer vts_number = true /\ is_subset_of vts_all vts_number = false /\
  is_subset_of vts_unknown vts_number = false /\
  flags_xor vts_number vts_integer = vts_floating_point /\
  value_types_to_string vts_floating_point = Some (lit "Float32|Float64") /\
  value_types_to_string vts_unknown = Some (lit "?") /\
  value_types_from_string (lit "Float32|Float64") = None /\
  value_types_from_string (lit "Int16") = Some (vt_flags VT_INT16).
Proof. repeat split. Qed.
Example C46_case_satisfaction :
  well_formed number_type /\
  (let e := {| et_data := dt_flags DT_CONSTANT; et_value := vt_flags VT_INT8 |} in
   well_formed e /\ et_is_satisfied_by number_type e = true /\ et_is_satisfied_by e number_type = false /\
   id_of_satisfying_type [number_type]
     [default_expression_type; e; e] = 1).
Proof. repeat split. Qed.
