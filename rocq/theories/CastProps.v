(** * Property C39: casts *)
From Coq Require Import ZArith List Bool Lia.
From Verif Require Import LangModel LangProofs ConcModel IndexModel IndexSpec
  LoopModel LoopSpec PolicyModel LocalModel LocalSpec LocalProofs LocalProps IntsModel ArithProofs
  CoreSpec CoreProofs CastModel ExampleMem.
Import ListNotations.
Open Scope Z_scope.

(** The values of a type. *)
Definition value_of (t : nty) (z : Z) : Prop :=
  match t with TBool => z = 0 \/ z = 1 | TInt i => imin i <= z <= imax i end.

(** The combinations for which the range policy exists. *)
Theorem C39_policy_exists v r :
  range_policy v r <> None <->
  match v, r with
  | TBool, _ => True
  | TInt s, TInt t => signed s = signed t /\ width s <= width t
  | TInt _, TBool => False
  end.
Proof.
  destruct v as [|s], r as [|t]; try destruct s; try destruct t; cbn;
    split; intros H; try congruence; try tauto; try (split; [reflexivity|lia]);
    destruct H as [H1 H2]; try discriminate; lia.
Qed.

(** It accepts everything, and nothing is lost. *)
Theorem C39_values_kept v r rng :
  range_policy v r = Some rng ->
  forall z, value_of v z -> static_cast r z = z /\ value_of r z /\ rng z (static_cast r z) = true.
Proof.
  intros E z Hz.
  assert (Hr : forall x y, rng x y = true).
  { destruct v as [|s], r as [|t]; try destruct s; try destruct t; cbn in E; try discriminate;
      inversion E; auto. }
  assert (Hv : value_of r z).
  { destruct v as [|s], r as [|t]; try destruct s; try destruct t; cbn in E; try discriminate;
      cbn in *; lia. }
  split; [|split; auto].
  destruct r as [|t]; cbn in *.
  - destruct Hv as [-> | ->]; reflexivity.
  - apply conv_id. exact Hv.
Qed.

Section C39.
Variables (v r : nty) (rng : Z -> Z -> bool).
Variables (ip : inpol Z) (op : outpol Z) (a rb : buf) (m : mem Z).

Lemma cast_outcome i : (forall x, arg_at ip a m i = Some x -> value_of v x) ->
  range_policy v r = Some rng ->
  unary_outcome (static_cast r) (fun _ => true) rng (arg_at ip a m i) =
    value_or_no_data (arg_at ip a m i).
Proof.
  intros Hv Hr. unfold unary_outcome, value_or_no_data. destruct (arg_at ip a m i) as [x|]; auto.
  destruct (C39_values_kept v r rng Hr x (Hv x eq_refl)) as (E1 & _ & E3). rewrite E3, E1. auto.
Qed.

(** An array of elements of type [v] is cast to an array of elements of type [r]. *)
Theorem C39_cast_1d size :
  range_policy v r = Some rng -> 0 <= size -> marks_result op rb -> a <> rb ->
  (forall i, 0 <= i < size -> arg_exists ip a m i /\ result_exists op rb m i /\
     forall x, arg_at ip a m i = Some x -> value_of v x) ->
  computes_1d (cast_1d r rng ip op a rb) op rb size (fun i => value_or_no_data (arg_at ip a m i)) m.
Proof.
  intros Hr Hs Hm Hab Hex.
  destruct (local1_computes _ _ _ _ _ _ Hs (local_unary_1d (static_cast r) (fun _ => true) rng ip op a rb
    size m Hm (fun i Hi => conj (proj1 (Hex i Hi)) (proj1 (proj2 (Hex i Hi))))))
    as (m1 & R & H & C & P).
  exists m1. split; [exact R|]. split; [|split; auto]. intros i Hi. specialize (H i Hi).
  rewrite (neq_eqb rb a) in H by auto. rewrite <- cast_outcome; auto. apply Hex; auto.
Qed.

Theorem C39_cast_2d rows cols :
  range_policy v r = Some rng -> 0 <= rows -> 0 <= cols -> marks_result op rb -> a <> rb ->
  (forall i, 0 <= i < rows * cols -> arg_exists ip a m i /\ result_exists op rb m i /\
     forall x, arg_at ip a m i = Some x -> value_of v x) ->
  computes_2d (cast_2d r rng ip op a rb cols) op rb rows cols
    (fun i => value_or_no_data (arg_at ip a m i)) m.
Proof.
  intros Hr Hs Hc Hm Hab Hex.
  destruct (local2_computes _ _ _ _ _ _ _ Hs Hc (local_unary_2d (static_cast r) (fun _ => true) rng
    ip op a rb rows cols m Hc Hm (fun i Hi => conj (proj1 (Hex i Hi)) (proj1 (proj2 (Hex i Hi))))))
    as (m1 & R & H & C & P).
  exists m1. split; [exact R|]. split; [|split; auto]. intros i Hi. specialize (H i Hi).
  rewrite (neq_eqb rb a) in H by auto. rewrite <- cast_outcome; auto. apply Hex; auto.
Qed.

Theorem C39_cast_0d :
  range_policy v r = Some rng -> marks_result op rb -> a <> rb ->
  arg_exists ip a m 0 -> result_exists op rb m 0 ->
  (forall x, arg_at ip a m 0 = Some x -> value_of v x) ->
  computes (cast_0d r rng ip op a rb) op rb 1 (fun _ => value_or_no_data (arg_at ip a m 0)) m.
Proof.
  intros Hr Hm Hab He Hx Hv.
  destruct (C06_unary_0d (static_cast r) (fun _ => true) rng ip op a rb m Hm Hab He Hx) as (m1 & R & H & C).
  exists m1. split; [exact R|]. split; auto. intros i Hi. specialize (H i Hi).
  rewrite <- cast_outcome; auto.
Qed.
End C39.
Print Assumptions C39_policy_exists.
Print Assumptions C39_values_kept.
Print Assumptions C39_cast_1d.
Print Assumptions C39_cast_2d.
Print Assumptions C39_cast_0d.

(** Without a range policy every combination is accepted.  No element is marked because of its
    value; the value is that modulo the number of values of the result type. *)
Theorem C39_cast_discard_2d t ip op a rb m rows cols :
  0 <= rows -> 0 <= cols -> marks_result op rb -> a <> rb ->
  (forall i, 0 <= i < rows * cols -> arg_exists ip a m i /\ result_exists op rb m i) ->
  exists w : Z -> Z,
    computes_2d (cast_2d (TInt t) discard_range_errors ip op a rb cols) op rb rows cols
      (fun i => value_or_no_data (option_map w (arg_at ip a m i))) m /\
    forall z, value_of (TInt t) (w z) /\ (exists k, w z = z + k * 2 ^ width t) /\
      (value_of (TInt t) z -> w z = z).
Proof.
  intros Hr Hc Hm Hab Hex. exists (conv t). split.
  - destruct (local2_computes _ _ _ _ _ _ _ Hr Hc (local_unary_2d (conv t) (fun _ => true)
      discard_range_errors ip op a rb rows cols m Hc Hm Hex)) as (m1 & R & H & C & P).
    exists m1. split; [exact R|]. split; [|split; auto]. intros i Hi. specialize (H i Hi).
    unfold unary_outcome, discard_range_errors, rng1_again in H.
    destruct (arg_at ip a m i); cbn in *; auto.
  - intros z. split; [|split].
    + apply conv_fits.
    + exists (- ((z - imin t) / modulus t)). unfold conv.
      replace (2 ^ width t) with (modulus t) by (destruct t; reflexivity).
      assert (modulus t <> 0) by (destruct t; discriminate).
      pose proof (Z.div_mod (z - imin t) (modulus t) H). lia.
    + apply conv_id.
Qed.
Print Assumptions C39_cast_discard_2d.

(** Casting to [bool] gives true exactly for the values that are not zero. *)
Theorem C39_cast_bool_2d ip op a rb m rows cols :
  0 <= rows -> 0 <= cols -> marks_result op rb -> a <> rb ->
  (forall i, 0 <= i < rows * cols -> arg_exists ip a m i /\ result_exists op rb m i) ->
  exists w : Z -> Z,
    computes_2d (cast_2d TBool discard_range_errors ip op a rb cols) op rb rows cols
      (fun i => value_or_no_data (option_map w (arg_at ip a m i))) m /\
    forall z, value_of TBool (w z) /\ (w z = 0 <-> z = 0).
Proof.
  intros Hr Hc Hm Hab Hex. exists (static_cast TBool). split.
  - destruct (local2_computes _ _ _ _ _ _ _ Hr Hc (local_unary_2d (static_cast TBool) (fun _ => true)
      discard_range_errors ip op a rb rows cols m Hc Hm Hex)) as (m1 & R & H & C & P).
    exists m1. split; [exact R|]. split; [|split; auto]. intros i Hi. specialize (H i Hi).
    unfold unary_outcome, discard_range_errors, rng1_again in H.
    destruct (arg_at ip a m i); cbn in *; auto.
  - intros z. cbn. destruct (Z.eqb_spec z 0); split; auto; split; intros; try lia; congruence.
Qed.
Print Assumptions C39_cast_bool_2d.

(** From [int8_t] to [int32_t] with the policy, and from [int32_t] to [uint8_t] without. *)
Definition cast_mem : mem Z :=
  mem_of [[-128; 127; 3; -1]; [0; 0; 0; 0]; [300; -1; 7; 256]] [[false; false; true; false]; [false; false; false; false]].

Example C39_case :
  range_policy (TInt S8) (TInt S32) = Some (fun _ _ => true) /\
  range_policy (TInt S8) (TInt U32) = None /\ range_policy (TInt S16) (TInt S8) = None /\
  (forall i, 0 <= i < 2 * 2 -> arg_exists (DetectByMask 0 true) 0 cast_mem i /\
     result_exists (MarkByMask 1 true) 1 cast_mem i /\
     forall x, arg_at (DetectByMask 0 true) 0 cast_mem i = Some x -> value_of (TInt S8) x) /\
  values_of (run (cast_2d (TInt S32) (fun _ _ => true) (DetectByMask 0 true) (MarkByMask 1 true) 0 1 2
    (whole2 2 2)) cast_mem) 1 4 = [Some (-128); Some 127; Some 0; Some (-1)] /\
  values_of (run (cast_2d (TInt U8) discard_range_errors SkipNoData DontMarkNoData 2 1 2
    (whole2 2 2)) cast_mem) 1 4 = [Some 44; Some 255; Some 7; Some 0].
Proof.
  split; [reflexivity|]. split; [reflexivity|]. split; [reflexivity|]. split; [|split; reflexivity].
  intros i Hi. assert (Hcells : i = 0 \/ i = 1 \/ i = 2 \/ i = 3) by lia.
  destruct Hcells as [-> | [-> | [-> | ->]]];
    (split; [split; discriminate|split; [split; discriminate|]]);
    intros y E; cbn in E; inversion E; subst; cbn; lia.
Qed.
