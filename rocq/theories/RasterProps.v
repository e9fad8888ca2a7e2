(** * Properties C71-C75: rasters of the Python extension *)
From Coq Require Import ZArith List Bool SpecFloat Lia.
From Verif Require Import IntsModel ArithModel ArithSpec ArithProofs ArithProps.
From Verif Require Import FloatModel IeeeSpec FloatSpec RasterModel RasterSpec RasterProofs RasterCells.
Import ListNotations.
Open Scope Z_scope.

(** ** Binary operations that return a new raster *)
Definition fetched (debug : bool) (h : heap) (o : operand) (i : nat) : option num :=
  match fetch debug h o i with Done v => Some v | _ => None end.
Definition cell_of debug alg rng (o1 o2 : operand) h t (i : nat) : option num :=
  match no_data_value t, fetched debug h o1 i, fetched debug h o2 i with
  | Some nd, Some v1, Some v2 => becomes alg rng (is_ref o1) (is_ref o2) nd (fun _ => v1) (fun _ => v2) v1 v2
  | Some nd, Some v1, None => if is_ref o1 && is_no_data v1 then Some nd else None
  | _, _, _ => None
  end.
Lemma at_fetched debug h o i v : at_operand debug h o i v -> fetched debug h o i = Some v.
Proof. unfold fetched. destruct o as [a|n]; cbn [at_operand fetch]; [intros [_ ->]|intros ->]; reflexivity. Qed.
Lemma run_binary_cells debug alg rng o1 o2 like t h :
  raster_type t -> has_sizes h o1 like && has_sizes h o2 like = true \/ debug = false ->
  (forall i, (i < size like)%nat -> exists v1, at_operand debug h o1 i v1 /\
     ((exists v2, at_operand debug h o2 i v2) \/ (exists a, o2 = Ref a /\ (a < length h)%nat /\ get debug h a i = Undefined))) ->
  run_binary debug alg rng o1 o2 like t h =
  if forallb (fun i => match cell_of debug alg rng o1 o2 h t i with Some _ => true | None => false end) (seq 0 (size like))
  then Done (h ++ [made t like (cell_of debug alg rng o1 o2 h t)], Some (length h))
  else Undefined.
Proof.
  intros RT HS HA. apply run_binary_spec; auto. intros nd i ND Hi. destruct (HA i Hi) as (v1 & A1 & A2). exists v1. split; auto.
  unfold cell_of. rewrite ND, (at_fetched _ _ _ _ _ A1). destruct A2 as [(v2 & A2)|(a & -> & La & Ga)].
  - left. exists v2. split; auto. rewrite (at_fetched _ _ _ _ _ A2). reflexivity.
  - right. exists a. unfold fetched. cbn [fetch]. rewrite Ga. auto.
Qed.

(** The operand reads [s] at [i], a number of type [t]. *)
Definition operand_reads (debug : bool) (h : heap) (o : operand) (i : nat) (t : vty) (s : option num) : Prop :=
  exists v, at_operand debug h o i v /\ argument v /\ vty_of v = t /\ s = seen (is_ref o) v.
Lemma raster_reads debug h a r i : holds h a r -> (i < size r)%nat -> operand_reads debug h (Ref a) i (value_type r) (reading r i).
Proof.
  intros H Hi. destruct (proper_get debug h a r i H Hi) as (n & G & T & A & l & D & L & N). exists n. split; [|split; [|split]]; auto.
  - split; auto. eapply holds_lt; eauto.
  - eapply reading_at; eauto.
Qed.
Lemma number_reads debug h n i t : argument n -> vty_of n = t -> operand_reads debug h (Number n) i t (Some n).
Proof. intros A T. exists n. repeat split; auto. Qed.

Lemma binary_returns debug alg rng o1 o2 like t t1 t2 h (rel : num -> num -> option num -> Prop) (R1 R2 : nat -> option num) :
  raster_type t -> has_sizes h o1 like && has_sizes h o2 like = true \/ debug = false ->
  (forall i, (i < size like)%nat -> operand_reads debug h o1 i t1 (R1 i) /\ operand_reads debug h o2 i t2 (R2 i)) ->
  (forall nd i n1 n2, no_data_value t = Some nd -> (i < size like)%nat -> R1 i = Some n1 -> R2 i = Some n2 ->
     argument n1 -> argument n2 -> vty_of n1 = t1 -> vty_of n2 = t2 ->
     exists f, calculated alg rng nd n1 n2 = Some f /\ vty_of f = t /\ argument f /\ rel n1 n2 (kept f)) ->
  exists r, returns h (run_binary debug alg rng o1 o2 like t h) r /\ value_type r = t /\ placed_like r like /\
    forall i, (i < size like)%nat -> cellwise rel (R1 i) (R2 i) (reading r i).
Proof.
  intros RT HS HA HC. destruct (no_data_exists t RT) as (nd & ND & NT & NA & _). assert (NK := kept_no_data _ _ ND).
  assert (HF : forall i, (i < size like)%nat -> exists f, cell_of debug alg rng o1 o2 h t i = Some f /\ vty_of f = t /\ argument f /\
    cellwise rel (R1 i) (R2 i) (kept f)).
  { intros i Hi. destruct (HA i Hi) as [(v1 & A1 & B1 & T1 & E1) (v2 & A2 & B2 & T2 & E2)].
    unfold cell_of. rewrite ND, (at_fetched _ _ _ _ _ A1), (at_fetched _ _ _ _ _ A2), becomes_seen by auto. rewrite <- E1, <- E2.
    destruct (R1 i) as [n1|] eqn:Q1; [|exists nd; cbn [cellwise]; auto]. destruct (R2 i) as [n2|] eqn:Q2; [|exists nd; cbn [cellwise]; auto].
    assert (n1 = v1) by (eapply seen_some; eauto). assert (n2 = v2) by (eapply seen_some; eauto). subst n1 n2.
    cbn [cellwise]. eapply HC; eauto. }
  rewrite run_binary_cells; auto.
  - rewrite all_some.
    2:{ intros i Hi. destruct (HF i Hi) as (f & E & _). eauto. }
    destruct (made_proper t like (cell_of debug alg rng o1 o2 h t) RT) as [P Rd].
    { intros i Hi. destruct (HF i Hi) as (f & E & T & A & _). eauto. }
    exists (made t like (cell_of debug alg rng o1 o2 h t)). split; [apply returns_made; auto|]. split; [reflexivity|].
    split; [apply made_placed|]. intros i Hi. destruct (HF i Hi) as (f & E & _ & _ & C). rewrite (Rd i f Hi E). auto.
  - intros i Hi. destruct (HA i Hi) as [(v1 & A1 & _) (v2 & A2 & _)]. exists v1. split; eauto.
Qed.

(** The rasters have the same numbers of rows and columns; without assertions it is enough that the
    second has no fewer cells. *)
Definition matching (debug : bool) (r1 r2 : raster) : Prop :=
  same_shape r2 r1 \/ debug = false /\ (size r1 <= size r2)%nat.
Lemma matching_size debug r1 r2 : matching debug r1 r2 -> (size r1 <= size r2)%nat.
Proof. intros [[A B]|[_ A]]; auto. unfold size. rewrite A, B. auto. Qed.
Lemma matching_sizes debug h b r1 r2 : matching debug r1 r2 -> holds h b r2 -> has_sizes h (Ref b) r1 = true \/ debug = false.
Proof. intros [A|[A _]] H; auto. left. eapply has_sizes_holds; eauto. Qed.
Lemma own_size h a r : holds h a r -> has_sizes h (Ref a) r = true.
Proof. intros H. eapply has_sizes_holds; eauto. split; auto. Qed.

Lemma raster_raster_returns debug alg rng type_of h a b r1 r2 t (rel : num -> num -> option num -> Prop) :
  holds h a r1 -> holds h b r2 -> matching debug r1 r2 ->
  type_of (value_type r1) (value_type r2) = Some t -> raster_type t ->
  (forall nd i n1 n2, no_data_value t = Some nd -> (i < size r1)%nat -> reading r1 i = Some n1 -> reading r2 i = Some n2 ->
     argument n1 -> argument n2 -> vty_of n1 = value_type r1 -> vty_of n2 = value_type r2 ->
     exists f, calculated alg rng nd n1 n2 = Some f /\ vty_of f = t /\ argument f /\ rel n1 n2 (kept f)) ->
  exists r, returns h (raster_raster debug alg rng type_of h a b) r /\ value_type r = t /\ placed_like r r1 /\
    forall i, (i < size r1)%nat -> cellwise rel (reading r1 i) (reading r2 i) (reading r i).
Proof.
  intros H1 H2 M HT RT HC. unfold raster_raster. rewrite (deref_holds _ _ _ H1), (deref_holds _ _ _ H2). cbn [bind].
  rewrite !switch_supported by (apply H1 || apply H2). rewrite (typed_proper _ _ _ H1), (typed_proper _ _ _ H2). cbn [bind]. rewrite HT.
  apply binary_returns with (t1 := value_type r1) (t2 := value_type r2); auto.
  - rewrite (own_size _ _ _ H1). cbn [andb]. eapply matching_sizes; eauto.
  - intros i Hi. split; apply raster_reads; auto. apply matching_size in M. lia.
Qed.

(** ** C71: sums and products of rasters *)
Theorem C71_add debug wrapv h a b r1 r2 :
  holds h a r1 -> holds h b r2 -> matching debug r1 r2 ->
  (forall i, (i < size r1)%nat -> is_defined wrapv Z.add (reading r1 i) (reading r2 i)) ->
  exists r, returns h (add_raster_raster debug wrapv h a b) r /\
    value_type r = result_of (value_type r1) (value_type r2) /\ placed_like r r1 /\
    forall i, (i < size r1)%nat -> cellwise sum_of (reading r1 i) (reading r2 i) (reading r i).
Proof.
  intros H1 H2 M D. apply raster_raster_returns; auto.
  - apply combined_result; [apply H1|apply H2].
  - apply result_raster_type; [apply H1|apply H2].
  - intros nd i n1 n2 ND Hi E1 E2 A1 A2 T1 T2. rewrite <- T1, <- T2 in ND |- *. apply sum_cell; auto.
    + rewrite T1. apply H1.
    + rewrite T2. apply H2.
    + rewrite <- E1, <- E2. auto.
Qed.
Print Assumptions C71_add.

Theorem C71_multiply debug wrapv h a b r1 r2 :
  holds h a r1 -> holds h b r2 -> matching debug r1 r2 ->
  (forall i, (i < size r1)%nat -> is_defined wrapv Z.mul (reading r1 i) (reading r2 i)) ->
  exists r, returns h (multiply_raster_raster debug wrapv h a b) r /\
    value_type r = result_of (value_type r1) (value_type r2) /\ placed_like r r1 /\
    forall i, (i < size r1)%nat -> cellwise product_of (reading r1 i) (reading r2 i) (reading r i).
Proof.
  intros H1 H2 M D. apply raster_raster_returns; auto.
  - apply combined_result; [apply H1|apply H2].
  - apply result_raster_type; [apply H1|apply H2].
  - intros nd i n1 n2 ND Hi E1 E2 A1 A2 T1 T2. rewrite <- T1, <- T2 in ND |- *. apply product_cell; auto.
    + rewrite T1. apply H1.
    + rewrite T2. apply H2.
    + rewrite <- E1, <- E2. auto.
Qed.
Print Assumptions C71_multiply.

(** *** Undefined behaviour, failed assertions *)
Lemma raster_raster_undefined debug alg rng type_of h a b r1 r2 t i n1 n2 :
  holds h a r1 -> holds h b r2 -> matching debug r1 r2 ->
  type_of (value_type r1) (value_type r2) = Some t -> raster_type t ->
  (i < size r1)%nat -> reading r1 i = Some n1 -> reading r2 i = Some n2 -> alg n1 n2 = None ->
  raster_raster debug alg rng type_of h a b = Undefined.
Proof.
  intros H1 H2 M HT RT Hi E1 E2 HC. unfold raster_raster. rewrite (deref_holds _ _ _ H1), (deref_holds _ _ _ H2). cbn [bind].
  rewrite !switch_supported by (apply H1 || apply H2). rewrite (typed_proper _ _ _ H1), (typed_proper _ _ _ H2). cbn [bind]. rewrite HT.
  assert (Sz := matching_size _ _ _ M). destruct (no_data_exists t RT) as (nd & ND & _).
  rewrite run_binary_cells; auto.
  - rewrite not_all_some with (i := i); auto.
    destruct (raster_reads debug h a r1 i H1 Hi) as (v1 & A1 & B1 & _ & S1).
    destruct (raster_reads debug h b r2 i H2 ltac:(lia)) as (v2 & A2 & B2 & _ & S2).
    unfold cell_of. rewrite ND, (at_fetched _ _ _ _ _ A1), (at_fetched _ _ _ _ _ A2), becomes_seen, <- S1, <- S2, E1, E2 by auto.
    rewrite E1 in S1. rewrite E2 in S2. symmetry in S1, S2. apply seen_some in S1, S2. subst. unfold calculated. rewrite HC. reflexivity.
  - rewrite (own_size _ _ _ H1). cbn [andb]. eapply matching_sizes; eauto.
  - intros j Hj. destruct (raster_reads debug h a r1 j H1 Hj) as (v1 & A1 & _). exists v1. split; auto. left.
    destruct (raster_reads debug h b r2 j H2 ltac:(lia)) as (v2 & A2 & _). eauto.
Qed.

(** Where signed integers do not wrap around, one result of a signed type that does not fit is
    enough for undefined behaviour. *)
Theorem C71_undefined debug h a b r1 r2 i t1 t2 v1 v2 :
  holds h a r1 -> holds h b r2 -> matching debug r1 r2 -> (i < size r1)%nat ->
  reading r1 i = Some (NInt t1 v1) -> reading r2 i = Some (NInt t2 v2) -> signed t1 = true -> signed t2 = true ->
  (in_range (integer_of t1 t2) (v1 + v2) = false -> add_raster_raster debug false h a b = Undefined) /\
  (in_range (integer_of t1 t2) (v1 * v2) = false -> multiply_raster_raster debug false h a b = Undefined).
Proof.
  intros H1 H2 M Hi E1 E2 S1 S2. assert (Sz := matching_size _ _ _ M).
  assert (RT1 : raster_type (value_type r1)) by apply H1. assert (RT2 : raster_type (value_type r2)) by apply H2.
  destruct (raster_reads debug h a r1 i H1 Hi) as (n1 & _ & B1 & T1 & Q1).
  destruct (raster_reads debug h b r2 i H2 ltac:(lia)) as (n2 & _ & B2 & T2 & Q2).
  rewrite E1 in Q1. rewrite E2 in Q2. symmetry in Q1, Q2. apply seen_some in Q1, Q2. subst n1 n2. cbn [vty_of] in T1, T2.
  destruct (integer_result t1 t2) as [RI RO]; [rewrite T1; auto|rewrite T2; auto|].
  assert (W : wide_signed (result_int t1 t2)).
  { rewrite RI. rewrite <- T1 in RT1. rewrite <- T2 in RT2. apply raster_type_supported in RT1, RT2.
    unfold wide_signed. destruct t1, t2; try discriminate; cbn; auto. }
  split; intros NI.
  - eapply raster_raster_undefined; eauto using combined_result, result_raster_type. cbn [sum].
    rewrite (proj2 (C13_add_defined false t1 t2 v1 v2 ltac:(congruence) B1 B2)); auto. split; auto. split; auto.
    rewrite RI, <- in_range_fits. congruence.
  - eapply raster_raster_undefined; eauto using combined_result, result_raster_type. cbn [product].
    rewrite (proj2 (C15_multiply_defined false t1 t2 v1 v2 ltac:(congruence) B1 B2)); auto. split; auto. left. split; auto.
    rewrite RI, <- in_range_fits. congruence.
Qed.
Print Assumptions C71_undefined.

(** Rasters of other sizes: an assertion fails.  Without assertions the rest of the first raster is
    combined with what is behind the second one. *)
Lemma raster_raster_sizes debug alg rng type_of h a b r1 r2 t :
  holds h a r1 -> holds h b r2 -> type_of (value_type r1) (value_type r2) = Some t -> raster_type t ->
  (debug = true -> ~ same_shape r2 r1 -> raster_raster debug alg rng type_of h a b = Aborted) /\
  (debug = false -> (exists i, (size r2 <= i < size r1)%nat /\ reading r1 i <> None) -> raster_raster debug alg rng type_of h a b = Undefined).
Proof.
  intros H1 H2 HT RT. unfold raster_raster. rewrite (deref_holds _ _ _ H1), (deref_holds _ _ _ H2). cbn [bind].
  rewrite !switch_supported by (apply H1 || apply H2). rewrite (typed_proper _ _ _ H1), (typed_proper _ _ _ H2). cbn [bind]. rewrite HT.
  split.
  - intros -> NS. unfold run_binary, has_sizes at 2. rewrite (proj1 H2). unfold assert.
    replace (_ && _) with false; [reflexivity|]. symmetry. apply andb_false_intro2. apply not_true_is_false. intros E.
    apply andb_prop in E. rewrite !Nat.eqb_eq in E. apply NS. exact E.
  - intros -> (i & Hi & NR). destruct (no_data_exists t RT) as (nd & ND & _).
    assert (OUT : forall j, (size r2 <= j)%nat -> get false h b j = Undefined).
    { intros j Hj. destruct (proj2 H2) as (_ & l & D & L & _). unfold get. rewrite (proj1 H2), D.
      replace (nth_error l j) with (@None (option num)); [reflexivity|]. symmetry. apply nth_error_None. lia. }
    rewrite run_binary_cells; auto.
    + rewrite not_all_some with (i := i); try lia; auto.
      destruct (raster_reads false h a r1 i H1 ltac:(lia)) as (v1 & A1 & B1 & _ & S1).
      unfold cell_of. rewrite ND, (at_fetched _ _ _ _ _ A1). unfold fetched. cbn [fetch]. rewrite OUT by lia. cbn [is_ref andb].
      rewrite is_no_data_blank by auto. cbn [seen is_ref] in S1. unfold kept in S1. destruct (blank v1); congruence.
    + intros j Hj. destruct (raster_reads false h a r1 j H1 Hj) as (v1 & A1 & _). exists v1. split; auto.
      destruct (Nat.lt_ge_cases j (size r2)) as [L|L].
      * left. destruct (raster_reads false h b r2 j H2 L) as (v2 & A2 & _). eauto.
      * right. exists b. split; auto. split; [eapply holds_lt; eauto|]. auto.
Qed.
Theorem C71_sizes wrapv h a b r1 r2 : holds h a r1 -> holds h b r2 ->
  (~ same_shape r2 r1 -> add_raster_raster true wrapv h a b = Aborted /\ multiply_raster_raster true wrapv h a b = Aborted) /\
  ((exists i, (size r2 <= i < size r1)%nat /\ reading r1 i <> None) ->
     add_raster_raster false wrapv h a b = Undefined /\ multiply_raster_raster false wrapv h a b = Undefined).
Proof.
  intros H1 H2. assert (R1 : raster_type (value_type r1)) by apply H1. assert (R2 : raster_type (value_type r2)) by apply H2.
  split; intros H; split; eapply raster_raster_sizes; eauto using combined_result, result_raster_type.
Qed.
Print Assumptions C71_sizes.

(** A raster of another value type: an assertion fails; without assertions [None] is returned. *)
Theorem C71_unsupported (debug wrapv : bool) h a b r1 r2 : nth_error h a = Some r1 -> nth_error h b = Some r2 ->
  ~ (raster_type (value_type r1) /\ raster_type (value_type r2)) ->
  let out : outcome returned := if debug then Aborted else Done (h, None) in
  add_raster_raster debug wrapv h a b = out /\ multiply_raster_raster debug wrapv h a b = out.
Proof.
  intros H1 H2 N. rewrite !raster_type_supported in N.
  assert (G : forall alg rng ty, raster_raster debug alg rng ty h a b = if debug then Aborted else Done (h, None)).
  { intros. unfold raster_raster, deref. rewrite H1, H2. cbn [bind]. unfold switch, failed_assertion.
    destruct (supported (value_type r1)); [destruct (supported (value_type r2))|]; auto. exfalso. auto. }
  split; apply G.
Qed.
Print Assumptions C71_unsupported.

(** *** Cases *)
Definition zero64 := S754_zero false.
Definition raster_of (t : vty) (nr nc : nat) (l : list num) : raster :=
  Raster t nr nc (zero64, zero64) (zero64, zero64) (Some (map Some l)).
Definition bytes (l : list Z) : raster := raster_of (VInt U8) 1 (length l) (map (NInt U8) l).
Definition ints (l : list Z) : raster := raster_of (VInt S32) 1 (length l) (map (NInt S32) l).
Definition long_ints (l : list Z) : raster := raster_of (VInt S64) 1 (length l) (map (NInt S64) l).
Definition doubles (l : list spec_float) : raster := raster_of VFloat64 1 (length l) (map (NFloat Double) l).
Definition readings (r : raster) : list (option num) := map (reading r) (seq 0 (size r)).
Definition last_readings (o : outcome returned) : option (list (option num)) :=
  match o with Done (h, Some a) => option_map readings (nth_error h a) | _ => None end.
Definition three_halves := S754_finite false 6755399441055744 (-52).
Definition tiny := S754_finite false 4503599627370496 (-1074).   (* 2 ^ -1022 *)

Lemma proper_of t nr nc l : raster_type t -> length l = (nr * nc)%nat -> (forall n, In n l -> vty_of n = t /\ argument n) ->
  proper (raster_of t nr nc l).
Proof.
  intros RT L H. split; auto. exists (map Some l). split; [reflexivity|]. split; [rewrite map_length; auto|].
  intros i Hi. cbn [size rows cols raster_of] in Hi. unfold size in Hi. cbn in Hi. rewrite nth_error_map.
  destruct (nth_error l i) as [n|] eqn:E; [|apply nth_error_None in E; lia]. exists n. split; [reflexivity|].
  apply H. eapply nth_error_In; eauto.
Qed.
Ltac proper_case := apply proper_of; [cbn; auto 9|reflexivity|]; cbn [In map]; intros ? ?;
  repeat match goal with H : _ \/ _ |- _ => destruct H as [H|H] end; subst; try contradiction; (split; [reflexivity|]);
  try reflexivity; cbn; lia.

Definition bytes1 := bytes [3; 200; 255; 10].
Definition ints1 := ints [4; 100; 7; -3].
Definition doubles1 := doubles [three_halves; S754_infinity true; S754_nan; tiny].
Example C71_holds : holds [bytes1; ints1; doubles1] 0 bytes1 /\ holds [bytes1; ints1; doubles1] 1 ints1 /\ holds [bytes1; ints1; doubles1] 2 doubles1.
Proof. repeat split; try reflexivity; unfold bytes1, ints1, doubles1, bytes, ints, doubles; proper_case. Qed.

(** Bytes and ints: 3 + 4, 200 + 100; the byte 255 has no data; 10 + -3 is lost.  Bytes and bytes:
    200 + 200 does not fit. *)
Example C71_case :
  last_readings (add_raster_raster true true [bytes1; ints1; doubles1] 0 1) = Some [Some (NInt S32 7); Some (NInt S32 300); None; None] /\
  last_readings (add_raster_raster true true [bytes1; ints1; doubles1] 0 0) = Some [Some (NInt U8 6); None; None; Some (NInt U8 20)] /\
  last_readings (multiply_raster_raster true true [bytes1; ints1; doubles1] 0 1) =
    Some [Some (NInt S32 12); Some (NInt S32 20000); None; Some (NInt S32 (-30))] /\
  last_readings (add_raster_raster true true [bytes1; ints1; doubles1] 2 1) =
    Some [Some (NFloat Double (S754_finite false 6192449487634432 (-50))); Some (NFloat Double (S754_infinity true)); Some (NFloat Double S754_nan); None].
Proof. vm_compute. repeat split. Qed.
Example C71_defined_case : forall i, (i < size bytes1)%nat -> is_defined true Z.add (reading bytes1 i) (reading ints1 i).
Proof. intros i Hi. unfold is_defined. destruct (reading bytes1 i) as [[]|]; auto. destruct (reading ints1 i) as [[]|]; auto. Qed.

(** "The result is the sum, if that fits in the type of the result" is false: of a byte and a
    negative int; of two bytes, if the sum is 255; of doubles, if the sum is 2 ^ -1022. *)
Theorem C71_refuted :
  (exists h a b r1 r2, holds h a r1 /\ holds h b r2 /\ same_shape r2 r1 /\
     reading r1 0 = Some (NInt U8 10) /\ reading r2 0 = Some (NInt S32 (-3)) /\
     forall debug wrapv, exists r, returns h (add_raster_raster debug wrapv h a b) r /\ reading r 0 = None) /\
  (exists h a b r1 r2, holds h a r1 /\ holds h b r2 /\ same_shape r2 r1 /\
     reading r1 0 = Some (NInt U8 200) /\ reading r2 0 = Some (NInt U8 55) /\
     forall debug wrapv, exists r, returns h (add_raster_raster debug wrapv h a b) r /\ reading r 0 = None) /\
  (exists h a b r1 r2, holds h a r1 /\ holds h b r2 /\ same_shape r2 r1 /\
     reading r1 0 = Some (NFloat Double (S754_finite false 2251799813685248 (-1074))) /\ reading r2 0 = reading r1 0 /\
     forall debug wrapv, exists r, returns h (add_raster_raster debug wrapv h a b) r /\ reading r 0 = None).
Proof.
  assert (G : forall r1 r2, proper r1 -> proper r2 -> rows r1 = 1%nat -> cols r1 = 1%nat -> same_shape r2 r1 ->
    (forall w, is_defined w Z.add (reading r1 0) (reading r2 0)) ->
    (forall out, cellwise sum_of (reading r1 0) (reading r2 0) out -> out = None) ->
    forall debug wrapv, exists r, returns [r1; r2] (add_raster_raster debug wrapv [r1; r2] 0 1) r /\ reading r 0 = None).
  { intros r1 r2 P1 P2 Rr Cc SS D HN debug wrapv.
    destruct (C71_add debug wrapv [r1; r2] 0 1 r1 r2) as (r & Rt & _ & _ & C).
    - split; auto.
    - split; auto.
    - left. auto.
    - intros i Hi. unfold size in Hi. rewrite Rr, Cc in Hi. replace i with 0%nat by lia. auto.
    - exists r. split; auto. apply HN, C. unfold size. rewrite Rr, Cc. lia. }
  split; [|split].
  - exists [bytes [10]; ints [-3]], 0%nat, 1%nat, (bytes [10]), (ints [-3]).
    assert (P1 : proper (bytes [10])) by (unfold bytes; proper_case). assert (P2 : proper (ints [-3])) by (unfold ints; proper_case).
    do 2 (split; [split; auto|]). split; [split; reflexivity|]. split; [reflexivity|]. split; [reflexivity|].
    apply G; auto; try reflexivity; [split; reflexivity|cbn; auto 6].
  - exists [bytes [200]; bytes [55]], 0%nat, 1%nat, (bytes [200]), (bytes [55]).
    assert (P1 : proper (bytes [200])) by (unfold bytes; proper_case). assert (P2 : proper (bytes [55])) by (unfold bytes; proper_case).
    do 2 (split; [split; auto|]). split; [split; reflexivity|]. split; [reflexivity|]. split; [reflexivity|].
    apply G; auto; try reflexivity; [split; reflexivity|cbn; auto 6].
  - set (x := S754_finite false 2251799813685248 (-1074)).
    exists [doubles [x]; doubles [x]], 0%nat, 1%nat, (doubles [x]), (doubles [x]).
    assert (P1 : proper (doubles [x])) by (unfold doubles; proper_case).
    do 2 (split; [split; auto|]). split; [split; reflexivity|]. split; [reflexivity|]. split; [reflexivity|].
    intros debug wrapv. eexists. split.
    + exists ([doubles [x]; doubles [x]] ++ [doubles [tiny]]). split; [|split; [reflexivity|]].
      * destruct debug, wrapv; vm_compute; reflexivity.
      * split; [intros a Ha; apply nth_error_app1; auto|]. split; [reflexivity|]. unfold doubles; proper_case.
    + reflexivity.
Qed.
Print Assumptions C71_refuted.

(** ** C72: rasters and numbers *)
Lemma number_returns debug alg rng h a r m (swap : bool) (rel : num -> num -> option num -> Prop) :
  holds h a r -> argument m -> vty_of m = value_type r ->
  (forall nd i n, no_data_value (value_type r) = Some nd -> (i < size r)%nat -> reading r i = Some n ->
     argument n -> vty_of n = value_type r ->
     let n1 := if swap then m else n in let n2 := if swap then n else m in
     exists f, calculated alg rng nd n1 n2 = Some f /\ vty_of f = value_type r /\ argument f /\ rel n1 n2 (kept f)) ->
  exists r', returns h (if swap then run_binary debug alg rng (Number m) (Ref a) r (value_type r) h
                        else run_binary debug alg rng (Ref a) (Number m) r (value_type r) h) r' /\
    value_type r' = value_type r /\ placed_like r' r /\
    forall i, (i < size r)%nat ->
      if swap then cellwise rel (Some m) (reading r i) (reading r' i) else cellwise rel (reading r i) (Some m) (reading r' i).
Proof.
  intros H A T HC. destruct swap.
  - apply binary_returns with (t1 := value_type r) (t2 := value_type r) (R1 := fun _ => Some m); auto.
    + apply H.
    + left. cbn [has_sizes andb]. apply own_size; auto.
    + intros i Hi. split; [apply number_reads; auto|apply raster_reads; auto].
    + intros nd i n1 n2 ND Hi E1 E2 A1 A2 T1 T2. inversion E1. subst n1. apply (HC nd i n2); auto.
  - apply binary_returns with (t1 := value_type r) (t2 := value_type r) (R2 := fun _ => Some m); auto.
    + apply H.
    + left. rewrite (own_size h a r) by auto. reflexivity.
    + intros i Hi. split; [apply raster_reads; auto|apply number_reads; auto].
    + intros nd i n1 n2 ND Hi E1 E2 A1 A2 T1 T2. inversion E2. subst n2. apply (HC nd i n1); auto.
Qed.

Lemma raster_number_casts debug alg rng h a r n : holds h a r ->
  raster_number debug alg rng h a n = match static_cast (value_type r) n with Some m => run_binary debug alg rng (Ref a) (Number m) r (value_type r) h | None => Undefined end /\
  number_raster debug alg rng h n a = match static_cast (value_type r) n with Some m => run_binary debug alg rng (Number m) (Ref a) r (value_type r) h | None => Undefined end.
Proof.
  intros H. unfold raster_number, number_raster. rewrite (deref_holds _ _ _ H). cbn [bind].
  rewrite !switch_supported by apply H. rewrite (typed_proper _ _ _ H). cbn [bind].
  rewrite combined_result, result_of_refl by apply H. destruct (static_cast (value_type r) n); auto.
Qed.

(** The number is converted to the type of the raster first.  The result has the type of the
    raster. *)
Theorem C72_add debug wrapv h a r n :
  holds h a r -> argument n ->
  (inconvertible (value_type r) n -> add_raster_number debug wrapv h a n = Undefined /\ add_number_raster debug wrapv h n a = Undefined) /\
  (~ inconvertible (value_type r) n -> exists m, converts (value_type r) n m /\
     ((forall i, (i < size r)%nat -> is_defined wrapv Z.add (reading r i) (Some m)) ->
        exists r', returns h (add_raster_number debug wrapv h a n) r' /\ value_type r' = value_type r /\ placed_like r' r /\
          forall i, (i < size r)%nat -> cellwise sum_of (reading r i) (Some m) (reading r' i)) /\
     ((forall i, (i < size r)%nat -> is_defined wrapv Z.add (Some m) (reading r i)) ->
        exists r', returns h (add_number_raster debug wrapv h n a) r' /\ value_type r' = value_type r /\ placed_like r' r /\
          forall i, (i < size r)%nat -> cellwise sum_of (Some m) (reading r i) (reading r' i))).
Proof.
  intros H A. assert (RT : raster_type (value_type r)) by apply H. assert (RR := result_of_refl _ RT).
  unfold add_raster_number, add_number_raster. destruct (raster_number_casts debug (sum wrapv) sum_within_range h a r n H) as [-> ->]. split.
  - intros I. rewrite static_cast_none by auto. auto.
  - intros I. destruct (static_cast_some (value_type r) n RT A I) as (m & -> & C). exists m. split; auto.
    destruct (converts_type _ _ _ C) as [Tm Am]. split; intros D.
    + apply (number_returns debug (sum wrapv) sum_within_range h a r m false sum_of H Am Tm).
      intros nd i k ND Hi E Ak Tk n1 n2. subst n1 n2. cbv iota.
      destruct (sum_cell wrapv k m nd) as (f & F1 & F2 & F3 & F4); rewrite ?Tk, ?Tm, ?RR; auto.
      { rewrite <- E. auto. } rewrite Tk, Tm, RR in F2. eauto.
    + apply (number_returns debug (sum wrapv) sum_within_range h a r m true sum_of H Am Tm).
      intros nd i k ND Hi E Ak Tk n1 n2. subst n1 n2. cbv iota.
      destruct (sum_cell wrapv m k nd) as (f & F1 & F2 & F3 & F4); rewrite ?Tk, ?Tm, ?RR; auto.
      { rewrite <- E. auto. } rewrite Tk, Tm, RR in F2. eauto.
Qed.
Print Assumptions C72_add.

Theorem C72_multiply debug wrapv h a r n :
  holds h a r -> argument n ->
  (inconvertible (value_type r) n -> multiply_raster_number debug wrapv h a n = Undefined /\ multiply_number_raster debug wrapv h n a = Undefined) /\
  (~ inconvertible (value_type r) n -> exists m, converts (value_type r) n m /\
     ((forall i, (i < size r)%nat -> is_defined wrapv Z.mul (reading r i) (Some m)) ->
        exists r', returns h (multiply_raster_number debug wrapv h a n) r' /\ value_type r' = value_type r /\ placed_like r' r /\
          forall i, (i < size r)%nat -> cellwise product_of (reading r i) (Some m) (reading r' i)) /\
     ((forall i, (i < size r)%nat -> is_defined wrapv Z.mul (Some m) (reading r i)) ->
        exists r', returns h (multiply_number_raster debug wrapv h n a) r' /\ value_type r' = value_type r /\ placed_like r' r /\
          forall i, (i < size r)%nat -> cellwise product_of (Some m) (reading r i) (reading r' i))).
Proof.
  intros H A. assert (RT : raster_type (value_type r)) by apply H. assert (RR := result_of_refl _ RT).
  unfold multiply_raster_number, multiply_number_raster. destruct (raster_number_casts debug (product wrapv) (product_within_range wrapv) h a r n H) as [-> ->]. split.
  - intros I. rewrite static_cast_none by auto. auto.
  - intros I. destruct (static_cast_some (value_type r) n RT A I) as (m & -> & C). exists m. split; auto.
    destruct (converts_type _ _ _ C) as [Tm Am]. split; intros D.
    + apply (number_returns debug (product wrapv) (product_within_range wrapv) h a r m false product_of H Am Tm).
      intros nd i k ND Hi E Ak Tk n1 n2. subst n1 n2. cbv iota.
      destruct (product_cell wrapv k m nd) as (f & F1 & F2 & F3 & F4); rewrite ?Tk, ?Tm, ?RR; auto.
      { rewrite <- E. auto. } rewrite Tk, Tm, RR in F2. eauto.
    + apply (number_returns debug (product wrapv) (product_within_range wrapv) h a r m true product_of H Am Tm).
      intros nd i k ND Hi E Ak Tk n1 n2. subst n1 n2. cbv iota.
      destruct (product_cell wrapv m k nd) as (f & F1 & F2 & F3 & F4); rewrite ?Tk, ?Tm, ?RR; auto.
      { rewrite <- E. auto. } rewrite Tk, Tm, RR in F2. eauto.
Qed.
Print Assumptions C72_multiply.

(** Numbers that the type of the raster has are not changed by the conversion. *)
Lemma float_kept f n m : converts (float_type f) n m -> forall w, finite n = true -> is_number (fprec f) (femax f) w -> fvalue f w = value n ->
  exists y, m = NFloat f y /\ fvalue f y = value n.
Proof.
  intros (T & A & C) w F W V.
  assert (exists y, m = NFloat f y) as [y ->] by (destruct f, m as [|[] y]; try discriminate T; eauto).
  exists y. split; auto.
  assert (N : nearest f (value n) 1 y -> fvalue f y = value n).
  { intros [_ N]. specialize (N w W). rewrite V in N. lia. }
  destruct n as [t z|f' x]; auto. cbn [finite] in F. rewrite F in C. destruct C as [[C _]|[O _]]; auto.
  exfalso. rewrite FloatProofs.overflows_iff, Z.mul_1_l, <- V in O. unfold fvalue in O.
  eapply (IeeeProofs.number_not_too_large (fprec f) (femax f)); eauto using FloatProofs.fprec_gt, FloatProofs.fprec_lt, FloatProofs.step_pos.
Qed.
Theorem C72_kept t n m : converts t n m ->
  match t with
  | VBool => False
  | VInt t => forall z, finite n = true -> value n = z * one -> in_range t z = true -> m = NInt t z
  | VFloat32 => forall w, finite n = true -> is_number 24 128 w -> fvalue Single w = value n -> exists y, m = NFloat Single y /\ fvalue Single y = value n
  | VFloat64 => forall w, finite n = true -> is_number 53 1024 w -> fvalue Double w = value n -> exists y, m = NFloat Double y /\ fvalue Double y = value n
  end.
Proof.
  intros H. destruct t as [|t| |]; [destruct H as (T & _); destruct m as [|[] y]; discriminate| |apply (float_kept Single n m H)|apply (float_kept Double n m H)].
  destruct H as (T & A & C). intros z F V I. apply in_range_fits in I. assert (P := FloatProofs.one_pos).
  destruct n as [t' z'|f x], m as [tm y|[] y]; try discriminate T; inversion T; subst tm; f_equal.
  - cbn [value] in V. apply Z.mul_cancel_r in V; [|lia]. subst z'. destruct C as (k & E). cbn [argument] in A.
    assert (conv t z = y) by (rewrite E, conv_shift, conv_id; auto). rewrite conv_id in H; auto.
  - destruct C as [_ ->]. rewrite V. apply Z.quot_mul. lia.
Qed.
Print Assumptions C72_kept.

(** *** Cases *)
Definition five_halves := NFloat Double (S754_finite false 5629499534213120 (-51)).
Example C72_case :
  last_readings (add_raster_number true true [bytes1; ints1; doubles1] 1 (NInt S64 1000)) =
    Some [Some (NInt S32 1004); Some (NInt S32 1100); Some (NInt S32 1007); Some (NInt S32 997)] /\
  last_readings (multiply_number_raster true true [bytes1; ints1; doubles1] (NInt S64 2) 0) = Some [Some (NInt U8 6); None; None; Some (NInt U8 20)] /\
  add_raster_number true true [bytes1; ints1; doubles1] 0 (NFloat Double (S754_infinity false)) = Undefined /\
  ~ inconvertible (value_type ints1) (NInt S64 1000) /\ argument (NInt S64 1000).
Proof. vm_compute. repeat split; auto; discriminate. Qed.

(** "The result is the sum, or has no data if that does not fit" is false: a byte plus 300 is what is left of
    the sum; a byte plus -1 has no data, except where the byte is 0; an int plus 2.5 is the int plus 2. *)
Theorem C72_refuted debug wrapv :
  (forall v, 0 <= v <= 210 ->
     exists r, returns [bytes [v]] (add_raster_number debug wrapv [bytes [v]] 0 (NInt S64 300)) r /\ reading r 0 = Some (NInt U8 (v + 44))) /\
  (forall v, 0 < v <= 254 ->
     exists r, returns [bytes [v]] (add_raster_number debug wrapv [bytes [v]] 0 (NInt S64 (-1))) r /\ reading r 0 = None) /\
  (forall v, -1000 <= v <= 1000 ->
     exists r, returns [ints [v]] (add_raster_number debug wrapv [ints [v]] 0 five_halves) r /\ reading r 0 = Some (NInt S32 (v + 2))).
Proof.
  assert (B : forall v, 0 <= v <= 254 -> holds [bytes [v]] 0 (bytes [v])).
  { intros v Hv. split; [reflexivity|]. unfold bytes. proper_case. }
  assert (RB : forall v, 0 <= v <= 254 -> reading (bytes [v]) 0 = Some (NInt U8 v)).
  { intros v Hv. cbn. unfold kept. cbn [blank signed imax]. destruct (Z.eqb_spec v 255); auto. lia. }
  split; [|split]; intros v Hv.
  - destruct (C72_add debug wrapv [bytes [v]] 0 (bytes [v]) (NInt S64 300) (B v ltac:(lia)) ltac:(cbn; lia)) as [_ H].
    destruct (H ltac:(cbn; auto)) as (m & C & H1 & _). destruct C as (T & A & C). destruct m as [tm y|[] y]; try discriminate T.
    inversion T. subst tm. destruct C as (k & C). cbn in A, C. assert (y = 44) by lia. subst y.
    destruct H1 as (r & Rt & _ & _ & Cw).
    { intros i _. destruct (reading (bytes [v]) i) as [[t z|]|] eqn:E; [|exact I|exact I].
      destruct i; [|destruct i; discriminate]. rewrite RB in E by lia. inversion E. subst. cbn. auto. }
    exists r. split; auto. specialize (Cw 0%nat ltac:(cbn; lia)). rewrite RB in Cw by lia. cbn [cellwise sum_of] in Cw. rewrite Cw.
    unfold integer_sum. cbn [signed Bool.eqb]. rewrite if_in_range_fits by (unfold fits_in; cbn; lia).
    unfold kept. cbn [blank integer_of result_of signed imax]. destruct (Z.eqb_spec (v + 44) 255); auto. lia.
  - destruct (C72_add debug wrapv [bytes [v]] 0 (bytes [v]) (NInt S64 (-1)) (B v ltac:(lia)) ltac:(cbn; lia)) as [_ H].
    destruct (H ltac:(cbn; auto)) as (m & C & H1 & _). destruct C as (T & A & C). destruct m as [tm y|[] y]; try discriminate T.
    inversion T. subst tm. destruct C as (k & C). cbn in A, C. assert (y = 255) by lia. subst y.
    destruct H1 as (r & Rt & _ & _ & Cw).
    { intros i _. destruct (reading (bytes [v]) i) as [[t z|]|] eqn:E; [|exact I|exact I].
      destruct i; [|destruct i; discriminate]. rewrite RB in E by lia. inversion E. subst. cbn. auto. }
    exists r. split; auto. specialize (Cw 0%nat ltac:(cbn; lia)). rewrite RB in Cw by lia. cbn [cellwise sum_of] in Cw. rewrite Cw.
    unfold integer_sum. cbn [signed Bool.eqb]. apply if_in_range_not. unfold fits_in. cbn. lia.
  - assert (Hh : holds [ints [v]] 0 (ints [v])). { split; [reflexivity|]. unfold ints. proper_case. }
    assert (RI : reading (ints [v]) 0 = Some (NInt S32 v)).
    { cbn. unfold kept. cbn [blank signed imin]. destruct (Z.eqb_spec v (-2147483648)); auto. lia. }
    destruct (C72_add debug wrapv [ints [v]] 0 (ints [v]) five_halves Hh eq_refl) as [_ H].
    assert (Q : Z.quot (value five_halves) one = 2) by (vm_compute; reflexivity).
    destruct (H ltac:(cbn [value_type ints raster_of inconvertible]; rewrite Q; intros [I|I]; discriminate I)) as (m & C & H1 & _).
    destruct C as (T & A & C). destruct m as [tm y|[] y]; try discriminate T.
    inversion T. subst tm. destruct C as (_ & C). assert (Y2 : y = 2) by (rewrite C; exact Q). clear C. subst y.
    destruct H1 as (r & Rt & _ & _ & Cw).
    { intros i _. destruct (reading (ints [v]) i) as [[t z|]|] eqn:E; [|exact I|exact I].
      destruct i; [|destruct i; discriminate]. rewrite RI in E by lia. inversion E. subst. right. right.
      rewrite !in_range_fits. unfold fits_in. cbn. lia. }
    exists r. split; auto. specialize (Cw 0%nat ltac:(cbn; lia)). rewrite RI in Cw by lia. cbn [cellwise sum_of] in Cw. rewrite Cw.
    unfold integer_sum. cbn [signed Bool.eqb]. rewrite if_in_range_fits by (unfold fits_in; cbn; lia).
    unfold kept. cbn [blank integer_of result_of signed imin]. destruct (Z.eqb_spec (v + 2) (-2147483648)); auto. lia.
Qed.
Print Assumptions C72_refuted.

(** ** C73: sums and products in place *)
Lemma in_place_changes debug alg rng h a b r1 r2 (rel : num -> num -> option num -> Prop) :
  holds h a r1 -> holds h b r2 -> value_type r2 = value_type r1 -> matching debug r1 r2 ->
  (forall nd i n1 n2, no_data_value (value_type r1) = Some nd -> (i < size r1)%nat -> reading r1 i = Some n1 -> reading r2 i = Some n2 ->
     argument n1 -> argument n2 -> vty_of n1 = value_type r1 -> vty_of n2 = value_type r1 ->
     exists f, recalculated (Nat.eqb b a) nd n1 n2 alg rng = Some f /\ vty_of f = value_type r1 /\ argument f /\ rel n1 n2 (kept f)) ->
  exists r, changes h (in_place debug alg rng h a b) a r /\ value_type r = value_type r1 /\ placed_like r r1 /\
    forall i, (i < size r1)%nat -> cellwise rel (reading r1 i) (reading r2 i) (reading r i).
Proof.
  intros H1 H2 Ty M HC. assert (RT : raster_type (value_type r1)) by apply H1.
  destruct (no_data_exists _ RT) as (nd & ND & NT & NA & _). assert (NK := kept_no_data _ _ ND). assert (Sz := matching_size _ _ _ M).
  set (G := fun i => match fetched debug h (Ref a) i, fetched debug h (Ref b) i with
    | Some v1, Some v2 => becomes alg rng true true nd (fun r => r) (fun r => if Nat.eqb b a then r else v2) v1 v2
    | _, _ => None end).
  assert (HF : forall i, (i < size r1)%nat -> exists f, G i = Some f /\ vty_of f = value_type r1 /\ argument f /\
    cellwise rel (reading r1 i) (reading r2 i) (kept f)).
  { intros i Hi. destruct (raster_reads debug h a r1 i H1 Hi) as (v1 & A1 & B1 & T1 & E1).
    destruct (raster_reads debug h b r2 i H2 ltac:(lia)) as (v2 & A2 & B2 & T2 & E2). rewrite Ty in T2.
    unfold G. rewrite (at_fetched _ _ _ _ _ A1), (at_fetched _ _ _ _ _ A2), becomes_recalculated by auto. cbn [is_ref seen] in E1, E2.
    rewrite <- E1, <- E2.
    destruct (reading r1 i) as [n1|] eqn:Q1; [|exists nd; cbn [cellwise]; auto]. destruct (reading r2 i) as [n2|] eqn:Q2; [|exists nd; cbn [cellwise]; auto].
    assert (n1 = v1) by (apply (seen_some true); auto). assert (n2 = v2) by (apply (seen_some true); auto). subst n1 n2.
    cbn [cellwise]. eapply HC; eauto. }
  unfold changes. rewrite (in_place_spec debug alg rng h a b r1 r2 G); auto.
  - rewrite all_some.
    2:{ intros i Hi. destruct (HF i Hi) as (f & E & _). eauto. }
    destruct (made_proper (value_type r1) r1 G RT) as [P Rd].
    { intros i Hi. destruct (HF i Hi) as (f & E & T & A & _). eauto. }
    exists (made (value_type r1) r1 G). split; [apply (changes_made h a r1 G); [apply H1|auto]|]. split; [reflexivity|].
    split; [apply made_placed|]. intros i Hi. destruct (HF i Hi) as (f & E & _ & _ & C). rewrite (Rd i f Hi E). auto.
  - eapply matching_sizes; eauto.
  - intros nd' i v1 v2 ND' Hi G1 G2. assert (nd' = nd) by congruence. subst nd'. unfold G, fetched. cbn [fetch]. rewrite G1, G2. reflexivity.
Qed.

Theorem C73_iadd debug wrapv h a b r1 r2 :
  holds h a r1 -> holds h b r2 -> value_type r2 = value_type r1 -> matching debug r1 r2 ->
  (forall i, (i < size r1)%nat -> is_defined wrapv Z.add (reading r1 i) (reading r2 i)) ->
  exists r, changes h (iadd debug wrapv h a b) a r /\ value_type r = value_type r1 /\ placed_like r r1 /\
    forall i, (i < size r1)%nat -> cellwise sum_in_place (reading r1 i) (reading r2 i) (reading r i).
Proof.
  intros H1 H2 Ty M D. apply in_place_changes; auto. intros nd i n1 n2 ND Hi E1 E2 A1 A2 T1 T2.
  rewrite <- T1 in ND |- *. apply sum_again; auto; try congruence.
  - rewrite T1. apply H1.
  - rewrite <- E1, <- E2. auto.
Qed.
Print Assumptions C73_iadd.

(** [a = b]: the raster is multiplied by itself. *)
Theorem C73_imultiply debug wrapv h a b r1 r2 :
  holds h a r1 -> holds h b r2 -> value_type r2 = value_type r1 -> matching debug r1 r2 ->
  (forall i, (i < size r1)%nat -> is_defined wrapv Z.mul (reading r1 i) (reading r2 i)) ->
  exists r, changes h (imultiply debug wrapv h a b) a r /\ value_type r = value_type r1 /\ placed_like r r1 /\
    forall i, (i < size r1)%nat -> cellwise (product_in_place (Nat.eqb b a)) (reading r1 i) (reading r2 i) (reading r i).
Proof.
  intros H1 H2 Ty M D. apply in_place_changes; auto. intros nd i n1 n2 ND Hi E1 E2 A1 A2 T1 T2.
  rewrite <- T1 in ND |- *. apply product_again; auto; try congruence.
  - rewrite T1. apply H1.
  - rewrite <- E1, <- E2. auto.
Qed.
Print Assumptions C73_imultiply.

(** Rasters of different value types, of different sizes *)
Theorem C73_types (debug wrapv : bool) h a b r1 r2 : holds h a r1 -> holds h b r2 -> value_type r2 <> value_type r1 ->
  let out : outcome heap := if debug then Aborted else Thrown in
  iadd debug wrapv h a b = out /\ imultiply debug wrapv h a b = out.
Proof.
  intros H1 H2 N.
  assert (G : forall alg rng, in_place debug alg rng h a b = (if debug then Aborted else Thrown)).
  { intros. unfold in_place. rewrite (deref_holds _ _ _ H1), (deref_holds _ _ _ H2). cbn [bind].
    assert (S : forall t, same_type (value_type r2) t = true -> value_type r2 = t) by (intros; apply same_type_eq; auto).
    unfold assert, failed_assertion. destruct (same_type (value_type r2) (value_type r1)) eqn:E; [exfalso; auto|].
    destruct debug; auto. rewrite switch_supported by apply H1. rewrite (typed_proper _ _ _ H1). cbn [bind].
    destruct (proj2 H2) as (_ & l & D & _). unfold typed. rewrite (proj1 H2), D, E. reflexivity. }
  split; apply G.
Qed.
Print Assumptions C73_types.
Theorem C73_sizes wrapv h a b r1 r2 : holds h a r1 -> holds h b r2 -> value_type r2 = value_type r1 -> ~ same_shape r2 r1 ->
  iadd true wrapv h a b = Aborted /\ imultiply true wrapv h a b = Aborted.
Proof.
  intros H1 H2 Ty N.
  assert (G : forall alg rng, in_place true alg rng h a b = Aborted).
  { intros. unfold in_place. rewrite (deref_holds _ _ _ H1), (deref_holds _ _ _ H2). cbn [bind].
    rewrite Ty, same_type_refl. rewrite assert_true by auto. rewrite switch_supported by apply H1.
    rewrite (typed_proper _ _ _ H1). cbn [bind]. assert (TY := typed_proper _ _ _ H2). rewrite Ty in TY. rewrite TY. cbn [bind].
    unfold has_sizes. rewrite (proj1 H2). unfold assert.
    replace (_ && _) with false; [reflexivity|]. symmetry. apply not_true_is_false. intros E.
    apply andb_prop in E. rewrite !Nat.eqb_eq in E. apply N. exact E. }
  split; apply G.
Qed.
Print Assumptions C73_sizes.

(** *** Cases *)
Definition self_readings (o : outcome heap) (a : nat) : option (list (option num)) :=
  match o with Done h => option_map readings (nth_error h a) | _ => None end.
Example C73_case :
  self_readings (iadd true true [bytes [1; 200; 255; 250]; bytes [2; 100; 3; 5]] 0 1) 0 = Some [Some (NInt U8 3); Some (NInt U8 44); None; None] /\
  self_readings (iadd true true [bytes [1; 200]] 0 0) 0 = Some [Some (NInt U8 2); Some (NInt U8 144)] /\
  self_readings (imultiply true true [bytes [5; 10; 128; 16]; bytes [3; 10; 2; 17]] 0 1) 0 =
    Some [Some (NInt U8 15); None; Some (NInt U8 0); None].
Proof. vm_compute. auto. Qed.

(** "A sum or product that does not fit has no data, others are right" is false of both. *)
Theorem C73_refuted debug wrapv :
  (forall v1 v2, 0 <= v1 <= 254 -> 0 <= v2 <= 254 -> 256 <= v1 + v2 ->
     let h := [bytes [v1]; bytes [v2]] in
     exists r, changes h (iadd debug wrapv h 0 1) 0 r /\ reading r 0 = Some (NInt U8 (v1 + v2 - 256))) /\
  (forall v, 7 <= v <= 15 ->
     let h := [bytes [v]; bytes [v]] in
     exists r, changes h (imultiply debug wrapv h 0 1) 0 r /\ reading r 0 = None) /\
  (exists r, changes [bytes [16]; bytes [16]] (imultiply debug wrapv [bytes [16]; bytes [16]] 0 1) 0 r /\ reading r 0 = Some (NInt U8 0)).
Proof.
  assert (B : forall v w, 0 <= v <= 254 -> 0 <= w <= 254 -> holds [bytes [v]; bytes [w]] 0 (bytes [v]) /\ holds [bytes [v]; bytes [w]] 1 (bytes [w])).
  { intros v w Hv Hw. split; (split; [reflexivity|]; unfold bytes; proper_case). }
  assert (RB : forall v, 0 <= v <= 254 -> reading (bytes [v]) 0 = Some (NInt U8 v)).
  { intros v Hv. cbn. unfold kept. cbn [blank signed imax]. destruct (Z.eqb_spec v 255); auto. lia. }
  assert (DF : forall op v w i, 0 <= v <= 254 -> 0 <= w <= 254 -> (i < size (bytes [v]))%nat -> is_defined wrapv op (reading (bytes [v]) i) (reading (bytes [w]) i)).
  { intros op v w i Hv Hw Hi. assert (i = 0%nat) by (cbn in Hi; lia). subst i. rewrite !RB by lia. cbn. auto. }
  assert (MM : forall v w, matching debug (bytes [v]) (bytes [w])) by (intros; left; split; reflexivity).
  split; [|split].
  - intros v1 v2 H1 H2 S h. destruct (B v1 v2 H1 H2) as [A1 A2].
    destruct (C73_iadd debug wrapv h 0 1 _ _ A1 A2 eq_refl (MM _ _)) as (r & C & _ & _ & Cw); [intros; apply DF; auto|].
    exists r. split; auto. specialize (Cw 0%nat ltac:(cbn; lia)). rewrite !RB in Cw by lia. cbn [cellwise sum_in_place] in Cw.
    destruct Cw as (y & [I (k & K)] & E). rewrite in_range_fits in I. unfold fits_in in I. cbn [imin imax modulus signed] in I, K. rewrite E.
    change (modulus U8) with 256 in K. assert (y = v1 + v2 - 256) by lia. subst y. unfold kept. cbn [blank signed imax].
    destruct (Z.eqb_spec (v1 + v2 - 256) 255); auto. lia.
  - intros v Hv h. destruct (B v v ltac:(lia) ltac:(lia)) as [A1 A2].
    destruct (C73_imultiply debug wrapv h 0 1 _ _ A1 A2 eq_refl (MM _ _)) as (r & C & _ & _ & Cw); [intros; apply DF; auto; lia|].
    exists r. split; auto. specialize (Cw 0%nat ltac:(cbn; lia)). rewrite !RB in Cw by lia. cbn [cellwise product_in_place Nat.eqb] in Cw.
    destruct Cw as (y & [I (k & K)] & E). rewrite in_range_fits in I. unfold fits_in in I. cbn [imin imax] in I. rewrite E.
    change (modulus U8) with 256 in K. assert (y = v * v) by nia. subst y. cbn [imax].
    destruct (Z.leb_spec (Z.abs (v * v * v)) 255); auto. nia.
  - destruct (B 16 16 ltac:(lia) ltac:(lia)) as [A1 A2].
    destruct (C73_imultiply debug wrapv _ 0 1 _ _ A1 A2 eq_refl (MM _ _)) as (r & C & _ & _ & Cw); [intros; apply DF; auto; lia|].
    exists r. split; auto. specialize (Cw 0%nat ltac:(cbn; lia)). rewrite !RB in Cw by lia. cbn [cellwise product_in_place Nat.eqb] in Cw.
    destruct Cw as (y & [I (k & K)] & E). rewrite in_range_fits in I. unfold fits_in in I. cbn [imin imax] in I. rewrite E.
    change (modulus U8) with 256 in K. assert (y = 0) by lia. subst y. reflexivity.
Qed.
Print Assumptions C73_refuted.

(** ** C74: comparisons and choices *)
Definition is_greater (n1 n2 : num) (out : option num) : Prop := is_less n2 n1 out.
Lemma byte_type : raster_type (VInt U8).
Proof. cbn. auto. Qed.
Lemma truth_cell b : vty_of (of_bool b) = VInt U8 /\ argument (of_bool b).
Proof. destruct b; (split; [reflexivity|]); cbn; unfold fits_in; cbn; lia. Qed.
Lemma compares_less nd n1 n2 : argument n1 -> argument n2 -> raster_type (vty_of n1) -> raster_type (vty_of n2) ->
  exists f, calculated lesser any_range nd n1 n2 = Some f /\ vty_of f = VInt U8 /\ argument f /\ is_less n1 n2 (kept f).
Proof.
  intros A1 A2 R1 R2. destruct (lesser_cell nd n1 n2 A1 A2 R1 R2) as (b & C & L). exists (of_bool b). rewrite kept_bool.
  destruct (truth_cell b). auto.
Qed.
Lemma compares_greater nd n1 n2 : argument n1 -> argument n2 -> raster_type (vty_of n1) -> raster_type (vty_of n2) ->
  exists f, calculated larger any_range nd n1 n2 = Some f /\ vty_of f = VInt U8 /\ argument f /\ is_greater n1 n2 (kept f).
Proof.
  intros A1 A2 R1 R2. destruct (larger_cell nd n1 n2 A1 A2 R1 R2) as (b & C & L). exists (of_bool b). rewrite kept_bool.
  destruct (truth_cell b). auto.
Qed.

Theorem C74_compare debug h a b r1 r2 :
  holds h a r1 -> holds h b r2 -> matching debug r1 r2 ->
  (exists r, returns h (less_raster_raster debug h a b) r /\ value_type r = VInt U8 /\ placed_like r r1 /\
     forall i, (i < size r1)%nat -> cellwise is_less (reading r1 i) (reading r2 i) (reading r i)) /\
  (exists r, returns h (greater_raster_raster debug h a b) r /\ value_type r = VInt U8 /\ placed_like r r1 /\
     forall i, (i < size r1)%nat -> cellwise is_greater (reading r1 i) (reading r2 i) (reading r i)).
Proof.
  intros H1 H2 M. assert (R1 := proj1 (proj2 H1)). assert (R2 := proj1 (proj2 H2)).
  split; (apply raster_raster_returns; auto; [apply byte_type|]);
    intros nd i n1 n2 ND Hi E1 E2 A1 A2 T1 T2; rewrite <- T1 in R1; rewrite <- T2 in R2.
  - apply compares_less; auto.
  - apply compares_greater; auto.
Qed.
Print Assumptions C74_compare.

Lemma compare_number_returns debug alg h a r n (rel : num -> num -> option num -> Prop) :
  holds h a r -> python_number n ->
  (forall nd n1 n2, argument n1 -> argument n2 -> raster_type (vty_of n1) -> raster_type (vty_of n2) ->
     exists f, calculated alg any_range nd n1 n2 = Some f /\ vty_of f = VInt U8 /\ argument f /\ rel n1 n2 (kept f)) ->
  (exists r', returns h (compare_raster_number debug alg h a n) r' /\ value_type r' = VInt U8 /\ placed_like r' r /\
     forall i, (i < size r)%nat -> cellwise rel (reading r i) (Some n) (reading r' i)) /\
  (exists r', returns h (compare_number_raster debug alg h n a) r' /\ value_type r' = VInt U8 /\ placed_like r' r /\
     forall i, (i < size r)%nat -> cellwise rel (Some n) (reading r i) (reading r' i)).
Proof.
  intros H [A P] HC. assert (R := proj1 (proj2 H)). assert (Rn : raster_type (vty_of n)) by (destruct P as [-> | ->]; cbn; auto 10).
  unfold compare_raster_number, compare_number_raster. rewrite (deref_holds _ _ _ H). cbn [bind].
  rewrite !switch_supported by apply H. rewrite (typed_proper _ _ _ H). cbn [bind]. split.
  - apply binary_returns with (t1 := value_type r) (t2 := vty_of n) (R2 := fun _ => Some n).
    + apply byte_type.
    + left. rewrite (own_size h a r) by auto. reflexivity.
    + intros i Hi. split; [apply raster_reads; auto|apply number_reads; auto].
    + intros nd i n1 n2 ND Hi E1 E2 A1 A2 T1 T2. apply HC; auto; rewrite ?T1, ?T2; auto.
  - apply binary_returns with (t1 := vty_of n) (t2 := value_type r) (R1 := fun _ => Some n).
    + apply byte_type.
    + left. cbn [has_sizes andb]. apply own_size; auto.
    + intros i Hi. split; [apply number_reads; auto|apply raster_reads; auto].
    + intros nd i n1 n2 ND Hi E1 E2 A1 A2 T1 T2. apply HC; auto; rewrite ?T1, ?T2; auto.
Qed.

(** A number is compared as it is: it is not converted to the type of the raster first, and it has
    data, whatever its value. *)
Theorem C74_compare_number debug h a r n :
  holds h a r -> python_number n ->
  (exists r', returns h (less_raster_number debug h a n) r' /\ value_type r' = VInt U8 /\ placed_like r' r /\
     forall i, (i < size r)%nat -> cellwise is_less (reading r i) (Some n) (reading r' i)) /\
  (exists r', returns h (less_number_raster debug h n a) r' /\ value_type r' = VInt U8 /\ placed_like r' r /\
     forall i, (i < size r)%nat -> cellwise is_less (Some n) (reading r i) (reading r' i)) /\
  (exists r', returns h (greater_raster_number debug h a n) r' /\ value_type r' = VInt U8 /\ placed_like r' r /\
     forall i, (i < size r)%nat -> cellwise is_greater (reading r i) (Some n) (reading r' i)) /\
  (exists r', returns h (greater_number_raster debug h n a) r' /\ value_type r' = VInt U8 /\ placed_like r' r /\
     forall i, (i < size r)%nat -> cellwise is_greater (Some n) (reading r i) (reading r' i)).
Proof.
  intros H P.
  destruct (compare_number_returns debug lesser h a r n is_less H P) as [L1 L2]; [intros; apply compares_less; auto|].
  destruct (compare_number_returns debug larger h a r n is_greater H P) as [G1 G2]; [intros; apply compares_greater; auto|].
  auto.
Qed.
Print Assumptions C74_compare_number.

(** *** Choices *)
Lemma if_returns debug h c o1 o2 rc t (R1 R2 : nat -> option num) :
  holds h c rc -> raster_type t -> has_sizes h o1 rc && has_sizes h o2 rc = true \/ debug = false ->
  (forall i, (i < size rc)%nat -> exists v1 v2,
     (at_operand debug h o1 i v1 /\ argument v1 /\ vty_of v1 = t /\ R1 i = kept v1) /\
     (at_operand debug h o2 i v2 /\ argument v2 /\ vty_of v2 = t /\ R2 i = kept v2)) ->
  exists r, returns h (run_if debug c o1 o2 rc t h) r /\ value_type r = t /\ placed_like r rc /\
    forall i, (i < size rc)%nat -> reading r i = chosen (reading rc i) (R1 i) (R2 i).
Proof.
  intros H RT HS HA. destruct (no_data_exists t RT) as (nd & ND & NT & NA & _).
  set (val := fun o i => match fetched debug h o i with Some v => v | None => nd end).
  set (G := fun i => becomes_choice nd (is_ref o1) (is_ref o2) (val (Ref c) i) (val o1 i) (val o2 i)).
  assert (HG : forall i, (i < size rc)%nat -> exists vc v1 v2,
     at_operand debug h (Ref c) i vc /\ at_operand debug h o1 i v1 /\ at_operand debug h o2 i v2 /\
     becomes_choice nd (is_ref o1) (is_ref o2) vc v1 v2 = G i /\
     vty_of (G i) = t /\ argument (G i) /\ kept (G i) = chosen (reading rc i) (R1 i) (R2 i)).
  { intros i Hi. destruct (raster_reads debug h c rc i H Hi) as (vc & Ac & Bc & Tc & Ec).
    destruct (HA i Hi) as (v1 & v2 & (A1 & B1 & T1 & E1) & (A2 & B2 & T2 & E2)). exists vc, v1, v2. split; auto. split; auto. split; auto.
    assert (Q : becomes_choice nd (is_ref o1) (is_ref o2) vc v1 v2 = G i).
    { unfold G, val. rewrite (at_fetched _ _ _ _ _ Ac), (at_fetched _ _ _ _ _ A1), (at_fetched _ _ _ _ _ A2). reflexivity. }
    split; auto. rewrite <- Q. split; [|split].
    - unfold becomes_choice. destruct (is_no_data vc), (truth vc), (is_ref o1 && is_no_data v1), (is_ref o2 && is_no_data v2); auto.
    - unfold becomes_choice. destruct (is_no_data vc), (truth vc), (is_ref o1 && is_no_data v1), (is_ref o2 && is_no_data v2); auto.
    - rewrite (choice_read nd t) by auto. rewrite E1, E2, Ec. reflexivity. }
  rewrite (run_if_spec debug c o1 o2 rc t h G); auto.
  - destruct (made_proper t rc (fun i => Some (G i)) RT) as [P Rd].
    { intros i Hi. destruct (HG i Hi) as (_ & _ & _ & _ & _ & _ & _ & T & A & _). eauto. }
    exists (made t rc (fun i => Some (G i))). split; [apply returns_made; auto|]. split; [reflexivity|].
    split; [apply made_placed|]. intros i Hi. destruct (HG i Hi) as (_ & _ & _ & _ & _ & _ & _ & _ & _ & K).
    rewrite (Rd i (G i) Hi eq_refl). auto.
  - intros nd' i ND' Hi. assert (nd' = nd) by congruence. subst nd'. destruct (HG i Hi) as (vc & v1 & v2 & A & B & C & D & _). eauto 8.
Qed.
Lemma raster_choice debug h a r i : holds h a r -> (i < size r)%nat ->
  exists v, at_operand debug h (Ref a) i v /\ argument v /\ vty_of v = value_type r /\ reading r i = kept v.
Proof. intros H Hi. destruct (raster_reads debug h a r i H Hi) as (v & A & B & T & E). exists v. auto. Qed.

(** The result is placed like the condition.  A cell has no data if the condition has none, or the
    choice has none; it does not matter whether the other choice has data. *)
Theorem C74_if debug h c a b rc r1 r2 :
  holds h c rc -> holds h a r1 -> holds h b r2 -> value_type r1 = value_type r2 -> matching debug rc r1 -> matching debug rc r2 ->
  exists r, returns h (if_raster_raster debug h c a b) r /\ value_type r = value_type r1 /\ placed_like r rc /\
    forall i, (i < size rc)%nat -> reading r i = chosen (reading rc i) (reading r1 i) (reading r2 i).
Proof.
  intros Hc H1 H2 Ty M1 M2. unfold if_raster_raster. rewrite (deref_holds _ _ _ Hc), (deref_holds _ _ _ H1), (deref_holds _ _ _ H2). cbn [bind].
  rewrite assert_true by (left; rewrite Ty; apply same_type_refl). rewrite !switch_supported by (apply Hc || apply H1).
  rewrite (typed_proper _ _ _ Hc), (typed_proper _ _ _ H1). assert (TY := typed_proper _ _ _ H2). rewrite <- Ty in TY. rewrite TY. cbn [bind].
  rewrite combined_result, result_of_refl by apply H1.
  assert (S1 := matching_size _ _ _ M1). assert (S2 := matching_size _ _ _ M2).
  apply if_returns; auto.
  - apply H1.
  - destruct (matching_sizes debug h a rc r1 M1 H1) as [-> |]; auto. destruct (matching_sizes debug h b rc r2 M2 H2) as [-> |]; auto.
  - intros i Hi. destruct (raster_choice debug h a r1 i H1 ltac:(lia)) as (v1 & A1). destruct (raster_choice debug h b r2 i H2 ltac:(lia)) as (v2 & A2).
    rewrite <- Ty in A2. eauto.
Qed.
Print Assumptions C74_if.

(** A number is converted to the type of the raster; if it is the number that stands for no data
    then, it has none. *)
Theorem C74_if_number debug h c a rc r n :
  holds h c rc -> holds h a r -> matching debug rc r -> argument n ->
  (inconvertible (value_type r) n -> if_raster_number debug h c a n = Undefined /\ if_number_raster debug h c n a = Undefined) /\
  (~ inconvertible (value_type r) n -> exists m, converts (value_type r) n m /\
     (exists r', returns h (if_raster_number debug h c a n) r' /\ value_type r' = value_type r /\ placed_like r' rc /\
        forall i, (i < size rc)%nat -> reading r' i = chosen (reading rc i) (reading r i) (kept m)) /\
     (exists r', returns h (if_number_raster debug h c n a) r' /\ value_type r' = value_type r /\ placed_like r' rc /\
        forall i, (i < size rc)%nat -> reading r' i = chosen (reading rc i) (kept m) (reading r i))).
Proof.
  intros Hc H M A. unfold if_raster_number, if_number_raster. rewrite (deref_holds _ _ _ Hc), (deref_holds _ _ _ H). cbn [bind].
  rewrite !switch_supported by (apply Hc || apply H). rewrite (typed_proper _ _ _ Hc), (typed_proper _ _ _ H). cbn [bind].
  assert (RT := proj1 (proj2 H)). assert (Sz := matching_size _ _ _ M). split.
  - intros I. rewrite static_cast_none by auto. auto.
  - intros I. destruct (static_cast_some (value_type r) n RT A I) as (m & -> & C). exists m. split; auto.
    destruct (converts_type _ _ _ C) as [Tm Am]. split.
    + apply if_returns with (R2 := fun _ => kept m); auto.
      * destruct (matching_sizes debug h a rc r M H) as [-> |]; auto.
      * intros i Hi. destruct (raster_choice debug h a r i H ltac:(lia)) as (v1 & A1). exists v1, m. split; auto. repeat split; auto.
    + apply if_returns with (R1 := fun _ => kept m); auto.
      * destruct (matching_sizes debug h a rc r M H) as [E|]; auto.
      * intros i Hi. destruct (raster_choice debug h a r i H ltac:(lia)) as (v1 & A1). exists m, v1. split; auto. repeat split; auto.
Qed.
Print Assumptions C74_if_number.

Theorem C74_types (debug : bool) h c a b rc r1 r2 :
  holds h c rc -> holds h a r1 -> holds h b r2 -> value_type r1 <> value_type r2 ->
  if_raster_raster debug h c a b = if debug then Aborted else Thrown.
Proof.
  intros Hc H1 H2 N. unfold if_raster_raster. rewrite (deref_holds _ _ _ Hc), (deref_holds _ _ _ H1), (deref_holds _ _ _ H2). cbn [bind].
  unfold assert, failed_assertion. destruct (same_type (value_type r1) (value_type r2)) eqn:E; [exfalso; apply N, same_type_eq; auto|].
  destruct debug; auto. rewrite !switch_supported by (apply Hc || apply H1). rewrite (typed_proper _ _ _ Hc), (typed_proper _ _ _ H1). cbn [bind].
  destruct (proj2 H2) as (_ & l & D & _). unfold typed. rewrite (proj1 H2), D.
  destruct (same_type (value_type r2) (value_type r1)) eqn:E2; auto. exfalso. apply N. symmetry. apply same_type_eq; auto.
Qed.
Print Assumptions C74_types.

(** *** Cases *)
Definition half := NFloat Double (S754_finite false 4503599627370496 (-53)).
Example C74_case :
  last_readings (less_raster_raster true [bytes [1; 3; 255]; bytes [2; 2; 2]] 0 1) = Some [Some (NInt U8 1); Some (NInt U8 0); None] /\
  last_readings (less_raster_number true [bytes [1; 3; 254]] 0 (NInt S64 300)) = Some [Some (NInt U8 1); Some (NInt U8 1); Some (NInt U8 1)] /\
  last_readings (greater_raster_number true [ints [0; 1; -1]] 0 half) = Some [Some (NInt U8 0); Some (NInt U8 1); Some (NInt U8 0)] /\
  last_readings (if_raster_raster true [bytes [1; 0; 255; 7]; ints [10; 11; 12; -2147483648]; ints [20; 21; 22; 23]] 0 1 2) =
    Some [Some (NInt S32 10); Some (NInt S32 21); None; None] /\
  last_readings (if_raster_number true [bytes [1; 0]; bytes [5; 6]] 0 1 (NInt S64 300)) = Some [Some (NInt U8 5); Some (NInt U8 44)] /\
  last_readings (if_number_raster true [bytes [1; 0]; bytes [5; 6]] 0 (NInt S64 (-1)) 1) = Some [None; Some (NInt U8 6)].
Proof. vm_compute. auto 10. Qed.
Example C74_hypotheses :
  let h := [bytes [1; 0; 255; 7]; ints [10; 11; 12; -2147483648]; ints [20; 21; 22; 23]] in
  holds h 0 (bytes [1; 0; 255; 7]) /\ holds h 1 (ints [10; 11; 12; -2147483648]) /\ holds h 2 (ints [20; 21; 22; 23]) /\
  matching true (bytes [1; 0; 255; 7]) (ints [10; 11; 12; -2147483648]) /\ matching true (bytes [1; 0; 255; 7]) (ints [20; 21; 22; 23]) /\
  python_number (NInt S64 300).
Proof.
  cbv zeta. split; [|split; [|split; [|split; [|split]]]].
  - split; [reflexivity|]. unfold bytes. proper_case.
  - split; [reflexivity|]. unfold ints. proper_case.
  - split; [reflexivity|]. unfold ints. proper_case.
  - left. split; reflexivity.
  - left. split; reflexivity.
  - split; [cbn; unfold fits_in; cbn; lia|auto].
Qed.

(** "A cell of the result is whether the number in the raster is less" is false: every 64-bit
    unsigned number, other than the one that stands for no data, is less than -1, and every
    condition that is NaN is true. *)
Definition large_ints zs := raster_of (VInt U64) 1 (length zs) (map (NInt U64) zs).
Theorem C74_refuted debug :
  (forall v, 0 <= v < 2 ^ 64 - 1 ->
     exists r, returns [large_ints [v]] (less_raster_number debug [large_ints [v]] 0 (NInt S64 (-1))) r /\ reading r 0 = Some (NInt U8 1)) /\
  (exists r, returns [doubles [S754_nan]; bytes [5]] (if_raster_number debug [doubles [S754_nan]; bytes [5]] 0 1 (NInt S64 6)) r /\
     reading r 0 = Some (NInt U8 5)).
Proof.
  split.
  - intros v Hv.
    assert (Hh : holds [large_ints [v]] 0 (large_ints [v])). { split; [reflexivity|]. unfold large_ints. proper_case. }
    assert (RI : reading (large_ints [v]) 0 = Some (NInt U64 v)).
    { cbn. unfold kept. cbn [blank signed imax]. destruct (Z.eqb_spec v 18446744073709551615); auto. lia. }
    destruct (C74_compare_number debug _ 0 _ (NInt S64 (-1)) Hh) as [(r & R & _ & _ & C) _].
    { split; [cbn; unfold fits_in; cbn; lia|auto]. }
    exists r. split; auto. specialize (C 0%nat ltac:(cbn; lia)). rewrite RI in C. cbn [cellwise is_less] in C. rewrite C.
    unfold counts_as. cbn [unsigned_meeting andb width orb Z.eqb Pos.eqb]. replace (v <? 0) with false by (symmetry; apply Z.ltb_ge; lia).
    replace (-1 <? 0) with true by reflexivity. replace (v <? -1 + 2 ^ 64) with true by (symmetry; apply Z.ltb_lt; lia). reflexivity.
  - assert (H0 : holds [doubles [S754_nan]; bytes [5]] 0 (doubles [S754_nan])). { split; [reflexivity|]. unfold doubles. proper_case. }
    assert (H1 : holds [doubles [S754_nan]; bytes [5]] 1 (bytes [5])). { split; [reflexivity|]. unfold bytes. proper_case. }
    destruct (C74_if_number debug _ 0 1 _ _ (NInt S64 6) H0 H1) as [_ G].
    { left. split; reflexivity. } { cbn. unfold fits_in. cbn. lia. }
    destruct G as (m & _ & (r & R & _ & _ & C) & _); [cbn; auto|]. exists r. split; auto.
    rewrite (C 0%nat) by (cbn; lia). reflexivity.
Qed.
Print Assumptions C74_refuted.

(** ** C75: construction *)
Theorem C75_zeros debug nr nc org cs t : raster_type t ->
  exists r, of_sizes debug nr nc org cs t = Done r /\ proper r /\
    value_type r = t /\ rows r = nr /\ cols r = nc /\ origin r = org /\ cell_sizes r = cs /\
    forall i, (i < nr * nc)%nat -> exists n, reading r i = Some n /\ vty_of n = t /\ is_zero n = true.
Proof.
  intros RT. unfold of_sizes. rewrite switch_supported by auto. eexists. split; [reflexivity|].
  assert (N : forall i, (i < nr * nc)%nat -> nth_error (repeat (Some (zero_of t)) (nr * nc)) i = Some (Some (zero_of t))).
  { intros i Hi. assert (L := repeat_length (Some (zero_of t)) (nr * nc)).
    destruct (nth_error (repeat (Some (zero_of t)) (nr * nc)) i) as [x|] eqn:E.
    - f_equal. apply nth_error_In, repeat_spec in E. auto.
    - apply nth_error_None in E. lia. }
  assert (Z : vty_of (zero_of t) = t /\ argument (zero_of t) /\ kept (zero_of t) = Some (zero_of t) /\ is_zero (zero_of t) = true).
  { cbn in RT. destruct RT as [<-|[<-|[<-|[<-|[<-|[<-|[<-|[]]]]]]]]; repeat split; vm_compute; auto; discriminate. }
  destruct Z as (Z1 & Z2 & Z3 & Z4). split; [|split; [|split; [|split; [|split; [|split]]]]]; auto.
  - split; auto. eexists. split; [reflexivity|]. split; [apply repeat_length|]. intros i Hi. exists (zero_of t). auto.
  - intros i Hi. exists (zero_of t). unfold reading. cbn [data]. rewrite N by auto. auto.
Qed.
Print Assumptions C75_zeros.

Lemma nth_pairs {A} (f : nat -> nat -> A) nc : forall nr s i j, (i < nr)%nat -> (j < nc)%nat ->
  nth_error (flat_map (fun i => map (f i) (seq 0 nc)) (seq s nr)) (i * nc + j) = Some (f (s + i)%nat j).
Proof.
  induction nr as [|nr IH]; intros s i j Hi Hj; [lia|]. cbn [seq flat_map].
  destruct i as [|i].
  - rewrite nth_error_app1 by (rewrite map_length, seq_length; lia). rewrite Nat.add_0_r.
    apply map_nth_error. rewrite (nth_error_nth' _ 0%nat) by (rewrite seq_length; lia). rewrite seq_nth by lia. reflexivity.
  - rewrite nth_error_app2 by (rewrite map_length, seq_length; lia). rewrite map_length, seq_length.
    replace (S i * nc + j - nc)%nat with (i * nc + j)%nat by lia. rewrite IH by lia. do 2 f_equal. lia.
Qed.
Lemma pairs_length {A} (f : nat -> nat -> A) nc : forall nr s,
  length (flat_map (fun i => map (f i) (seq 0 nc)) (seq s nr)) = (nr * nc)%nat.
Proof. induction nr as [|nr IH]; intros s; cbn [seq flat_map]; auto. rewrite app_length, map_length, seq_length, IH. lia. Qed.
Lemma copied_ok t values mask is :
  (forall i j, In (i, j) is -> exists n, copied_item t values mask i j = Done n) ->
  exists l, copied t values mask is = Done l /\ length l = length is /\
    forall k i j, nth_error is k = Some (i, j) -> exists n, nth_error l k = Some (Some n) /\ copied_item t values mask i j = Done n.
Proof.
  induction is as [|[i j] is IH]; intros H.
  - exists []. split; [reflexivity|]. split; auto. intros [|k]; discriminate.
  - destruct (H i j) as (n & E); [left; auto|]. destruct IH as (l & L1 & L2 & L3); [intros; apply H; right; auto|].
    exists (Some n :: l). cbn [copied]. rewrite E. cbn [bind]. rewrite L1. split; [reflexivity|]. split; [cbn; lia|].
    intros [|k] i' j' Q; cbn [nth_error] in *; auto. inversion Q. subst. eauto.
Qed.
Lemma copied_thrown t values mask is i j : raster_type t -> In (i, j) is -> copied_item t values mask i j = Thrown ->
  copied t values mask is = Thrown.
Proof.
  intros RT. destruct (no_data_exists t RT) as (nd & ND & _). induction is as [|[i' j'] is IH]; intros I E; [destruct I|].
  cbn [copied]. assert (T : (exists n, copied_item t values mask i' j' = Done n) \/ copied_item t values mask i' j' = Thrown).
  { unfold copied_item, item. rewrite ND. destruct (nth_error mask i') as [marks|]; auto. destruct (nth_error marks j') as [[]|]; cbn [bind]; eauto.
    destruct (nth_error values i') as [row|]; auto. destruct (nth_error row j'); eauto. }
  destruct I as [I|I].
  - inversion I. subst. rewrite E. reflexivity.
  - destruct T as [(n & ->)| ->]; auto. cbn [bind]. rewrite IH by auto. reflexivity.
Qed.
Lemma item_given t values mask i j nd : no_data_value t = Some nd -> kept nd = None ->
  (forall row n, nth_error values i = Some row -> nth_error row j = Some n -> vty_of n = t /\ argument n) -> vty_of nd = t -> argument nd ->
  (exists n, copied_item t values mask i j = Done n /\ vty_of n = t /\ argument n /\ given values mask i j (kept n)) \/
  (copied_item t values mask i j = Thrown /\ forall out, ~ given values mask i j out).
Proof.
  intros ND NK HV NT NA. unfold copied_item, item, given.
  destruct (nth_error mask i) as [marks|]; [|right; split; auto; intros out (x & m & A & _); discriminate].
  destruct (nth_error marks j) as [m|] eqn:EM; [|right; split; auto; intros out (x & m & A & B & _); inversion A; subst; congruence].
  cbn [bind]. destruct m.
  - rewrite ND. left. exists nd. split; auto. split; auto. split; auto. exists marks, true. auto.
  - destruct (nth_error values i) as [row|] eqn:ER.
    2:{ right. split; auto. intros out (x & m & A & B & C). inversion A. subst x. rewrite EM in B. inversion B. subst m. destruct C as (a & b & C & _). discriminate. }
    destruct (nth_error row j) as [n|] eqn:EN.
    2:{ right. split; auto. intros out (x & m & A & B & C). inversion A. subst x. rewrite EM in B. inversion B. subst m.
        destruct C as (a & b & C & D & _). inversion C. subst a. congruence. }
    left. destruct (HV row n eq_refl EN) as [TN AN]. exists n. split; auto. split; auto. split; auto. exists marks, false. split; auto. split; auto.
    exists row, n. auto.
Qed.

Theorem C75_lists debug values mask org cs t : raster_type t ->
  (forall row n, In row values -> In n row -> vty_of n = t /\ argument n) ->
  (complete values mask -> exists r nc, of_lists debug values mask org cs t = Done r /\ proper r /\
     value_type r = t /\ rows r = length values /\ option_map (@length num) (nth_error values 0) = Some nc /\ cols r = nc /\
     origin r = org /\ cell_sizes r = cs /\
     forall i j, (i < length values)%nat -> (j < nc)%nat -> given values mask i j (reading r (i * nc + j))) /\
  (~ complete values mask -> of_lists debug values mask org cs t = Thrown).
Proof.
  intros RT HV. destruct (no_data_exists t RT) as (nd & ND & NT & NA & _). assert (NK := kept_no_data _ _ ND).
  assert (HI : forall i j, (exists n, copied_item t values mask i j = Done n /\ vty_of n = t /\ argument n /\ given values mask i j (kept n)) \/
    (copied_item t values mask i j = Thrown /\ forall out, ~ given values mask i j out)).
  { intros i j. apply item_given with nd; auto. intros row n A B. apply (HV row n); eapply nth_error_In; eauto. }
  unfold of_lists. destruct values as [|first rest].
  - split; auto. intros (f & l & A & _). discriminate.
  - rewrite switch_supported by auto. set (values := first :: rest) in *. set (is := flat_map _ _).
    assert (II : forall i j, In (i, j) is -> (i < length values)%nat /\ (j < length first)%nat).
    { intros i j H. apply in_flat_map in H. destruct H as (i' & A & B). apply in_map_iff in B. destruct B as (j' & B & C).
      inversion B. subst. apply in_seq in A, C. lia. }
    assert (IJ : forall i j, (i < length values)%nat -> (j < length first)%nat -> nth_error is (i * length first + j) = Some (i, j)).
    { intros i j A B. unfold is. rewrite (nth_pairs (fun i j => (i, j))) by auto. reflexivity. }
    assert (IL : length is = (length values * length first)%nat) by apply (pairs_length (fun i j => (i, j))).
    unfold rows_exist. rewrite Nat.leb_refl. cbn [andb]. split.
    + intros (f & l & E & Len & G). unfold values in E. inversion E. subst f l. clear E.
      rewrite (proj2 (Nat.leb_le _ _) Len).
      destruct (copied_ok t values mask is) as (l & L1 & L2 & L3).
      { intros i j H. destruct (II i j H) as [A B]. destruct (G i j A B) as (out & O). destruct (HI i j) as [(n & C & _)|[_ C]]; eauto.
        exfalso. eapply C; eauto. }
      rewrite L1. cbn [bind]. eexists. exists (length first). split; [reflexivity|].
      assert (Q : forall i j, (i < length values)%nat -> (j < length first)%nat -> exists n, nth_error l (i * length first + j) = Some (Some n) /\
        vty_of n = t /\ argument n /\ given values mask i j (kept n)).
      { intros i j A B. destruct (L3 _ i j (IJ i j A B)) as (n & N1 & N2). exists n. split; auto.
        destruct (HI i j) as [(n' & C & D)|[C _]]; [|congruence]. rewrite N2 in C. inversion C. subst n'. auto. }
      split; [|repeat (split; [reflexivity|])].
      * split; auto. exists l. split; [reflexivity|]. unfold size. cbn [rows cols value_type]. split; [lia|]. intros k Hk.
        assert (length first <> 0)%nat by (intros Z; rewrite Z in Hk; lia).
        destruct (Q (k / length first)%nat (k mod length first)%nat) as (n & N1 & N2 & N3 & _).
        { apply Nat.div_lt_upper_bound; lia. } { apply Nat.mod_upper_bound; auto. }
        exists n. replace (k / length first * length first + k mod length first)%nat with k in N1 by (rewrite (Nat.div_mod k (length first)) at 1; lia). auto.
      * intros i j A B. destruct (Q i j A B) as (n & N1 & _ & _ & N4). unfold reading. cbn [data]. rewrite N1. auto.
    + intros NC. destruct (Nat.leb_spec (length values) (length mask)) as [Len|]; auto.
      assert (D : (exists p, In p is /\ copied_item t values mask (fst p) (snd p) = Thrown) \/
                  (forall p, In p is -> exists n, copied_item t values mask (fst p) (snd p) = Done n)).
      { clear -HI. induction is as [|[i j] l IH]; [right; intros ? []|]. destruct IH as [(p & A & B)|IH].
        - left. exists p. split; auto. right. auto.
        - destruct (HI i j) as [(n & C & _)|[C _]].
          + right. intros p [<-|H]; [exists n; auto|auto].
          + left. exists (i, j). split; [left|]; auto. }
      destruct D as [([i j] & A & B)|D].
      * rewrite (copied_thrown t values mask is i j); auto.
      * exfalso. apply NC. exists first, rest. split; auto. split; auto. intros i j A B.
        destruct (D (i, j)) as (n & E); [eapply nth_error_In; eauto|]. destruct (HI i j) as [(n' & _ & _ & _ & F)|[F _]]; eauto.
        cbn [fst snd] in E. congruence.
Qed.
Print Assumptions C75_lists.

(** Other value types: debug builds abort, others make a raster without data. *)
Theorem C75_unsupported (debug : bool) nr nc values mask org cs t : ~ raster_type t -> values <> [] ->
  (if debug then of_sizes true nr nc org cs t = Aborted /\ of_lists true values mask org cs t = Aborted
   else exists r r', of_sizes false nr nc org cs t = Done r /\ of_lists false values mask org cs t = Done r' /\ data r = None /\ data r' = None).
Proof.
  intros N NE. assert (S : supported t = false).
  { destruct (supported t) eqn:E; auto. exfalso. apply N. cbn. destruct t as [|[]| |]; try discriminate; auto 10. }
  unfold of_sizes, of_lists, switch, failed_assertion. rewrite S. destruct values; [contradiction|].
  destruct debug; [auto|]. eexists. eexists. repeat split.
Qed.
Print Assumptions C75_unsupported.

(** *** Cases *)
Definition constructed (o : outcome raster) : option (nat * nat * list (option num)) :=
  match o with Done r => Some (rows r, cols r, readings r) | _ => None end.
Definition byte_rows := map (map (NInt U8)).
Example C75_case :
  constructed (of_sizes true 1 2 (zero64, zero64) (zero64, zero64) (VInt S32)) = Some (1%nat, 2%nat, [Some (NInt S32 0); Some (NInt S32 0)]) /\
  constructed (of_lists true (byte_rows [[1; 2]; [3; 255; 9]]) [[false; true]; [false; false]] (zero64, zero64) (zero64, zero64) (VInt U8)) =
    Some (2%nat, 2%nat, [Some (NInt U8 1); None; Some (NInt U8 3); None]) /\
  of_lists true (byte_rows [[1; 2]; [3]]) [[false; false]; [false; false]] (zero64, zero64) (zero64, zero64) (VInt U8) = Thrown /\
  constructed (of_lists true (byte_rows [[1; 2]; [3]]) [[false; false]; [false; true]] (zero64, zero64) (zero64, zero64) (VInt U8)) =
    Some (2%nat, 2%nat, [Some (NInt U8 1); Some (NInt U8 2); Some (NInt U8 3); None]).
Proof. vm_compute. auto. Qed.
Example C75_complete : complete (byte_rows [[1; 2]; [3]]) [[false; false]; [false; true]] /\ ~ complete (byte_rows [[1; 2]; [3]]) [[false; false]; [false; false]].
Proof.
  split.
  - exists [NInt U8 1; NInt U8 2], [[NInt U8 3]]. split; [reflexivity|]. split; [cbn; lia|]. intros [|[|i]] [|[|j]] A B; try (cbn in A, B; lia);
      (eexists; eexists; eexists; split; [reflexivity|]; split; [reflexivity|]); cbv iota; try reflexivity; eexists; eexists; repeat split.
  - intros (f & l & E & _ & H). inversion E. subst f l. destruct (H 1%nat 1%nat) as (out & ms & m & A & B & C); [cbn; lia|cbn; lia|].
    inversion A. subst ms. inversion B. subst m. destruct C as (row & n & C & D & _). inversion C. subst row. discriminate.
Qed.
(** "What is not masked is read back" is false: 255 is read as no data. *)
Theorem C75_refuted debug org cs :
  exists r, of_lists debug (byte_rows [[255]]) [[false]] org cs (VInt U8) = Done r /\ reading r 0 = None.
Proof. eexists. split; reflexivity. Qed.
Print Assumptions C75_refuted.
