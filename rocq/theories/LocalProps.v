(** * Properties C05-C12: local operations *)
From Coq Require Import ZArith List Bool Lia.
From Verif Require Import LangModel LangProofs ConcModel IndexModel IndexSpec IndexProofs
  LoopModel LoopSpec LoopProofs PolicyModel LocalModel LocalSpec LocalProofs ExampleMem.
Import ListNotations.
Open Scope Z_scope.

(** ** C05: binary local operations *)
Section C05.
Context {V : Type}.
Variables (f : V -> V -> V) (dom : V -> V -> bool) (rng : V -> V -> V -> bool).
Variables (ip1 ip2 : inpol V) (op : outpol V) (a1 a2 rb : buf) (m : mem V).

Lemma rng2_plain : rng2_again rng false false = rng.
Proof. reflexivity. Qed.
Lemma neq_eqb (x y : nat) : y <> x -> Nat.eqb x y = false.
Proof. intros; apply Nat.eqb_neq; auto. Qed.

(** Two 1D arrays. *)
Theorem C05_binary_1d_1d size :
  0 <= size -> marks_result op rb -> a1 <> rb -> a2 <> rb ->
  (forall i, 0 <= i < size ->
     arg_exists ip1 a1 m i /\ arg_exists ip2 a2 m i /\ result_exists op rb m i) ->
  computes (binary_1d_1d f dom rng None ip1 ip2 op a1 a2 rb (whole1 size)) op rb size
    (fun i => binary_outcome f dom rng (arg_at ip1 a1 m i) (arg_at ip2 a2 m i)) m.
Proof.
  intros Hs Hm H1 H2 Hex.
  destruct (local1_sequential _ _ _ _ _ _ Hs
    (local_binary_1d_1d f dom rng None ip1 ip2 op a1 a2 rb size m Hm Hex)) as (m' & R & H & C).
  exists m'; split; [auto|split; auto]. intros i Hi. specialize (H i Hi).
  rewrite option_map_id in H. rewrite (neq_eqb rb a1), (neq_eqb rb a2) in H by auto.
  exact H.
Qed.

(** Two rasters. *)
Theorem C05_binary_2d_2d rows cols :
  0 <= rows -> 0 <= cols -> marks_result op rb -> a1 <> rb -> a2 <> rb ->
  (forall i, 0 <= i < rows * cols ->
     arg_exists ip1 a1 m i /\ arg_exists ip2 a2 m i /\ result_exists op rb m i) ->
  computes (binary_2d_2d f dom rng ip1 ip2 op a1 a2 rb cols (whole2 rows cols)) op rb
    (rows * cols)
    (fun i => binary_outcome f dom rng (arg_at ip1 a1 m i) (arg_at ip2 a2 m i)) m.
Proof.
  intros Hr Hc Hm H1 H2 Hex.
  destruct (local2_sequential _ _ _ _ _ _ _ Hr Hc
    (local_binary_2d_2d f dom rng ip1 ip2 op a1 a2 rb rows cols m Hc Hm Hex))
    as (m' & R & H & C).
  exists m'; split; [auto|split; auto]. intros i Hi. specialize (H i Hi).
  rewrite (neq_eqb rb a1), (neq_eqb rb a2) in H by auto. exact H.
Qed.

(** 1D array and scalar. *)
Theorem C05_binary_1d_0d size :
  0 <= size -> marks_result op rb -> a1 <> rb -> a2 <> rb -> policy_apart ip2 op rb ->
  arg_exists ip2 a2 m 0 ->
  (forall i, 0 <= i < size -> arg_exists ip1 a1 m i /\ result_exists op rb m i) ->
  computes (binary_1d_0d f dom rng ip1 ip2 op a1 a2 rb (whole1 size)) op rb size
    (fun i => binary_outcome f dom rng (arg_at ip1 a1 m i) (arg_at ip2 a2 m 0)) m.
Proof.
  intros Hs Hm H1 H2 Hap He Hex.
  destruct (local1_sequential _ _ _ _ _ _ Hs
    (local_binary_1d_0d f dom rng ip1 ip2 op a1 a2 rb size m Hm H2 Hap He Hex))
    as (m' & R & H & C).
  exists m'; split; [auto|split; auto]. intros i Hi. specialize (H i Hi).
  rewrite (neq_eqb rb a1) in H by auto. exact H.
Qed.

(** Scalar and 1D array. *)
Theorem C05_binary_0d_1d size :
  0 <= size -> marks_result op rb -> a1 <> rb -> a2 <> rb -> policy_apart ip1 op rb ->
  arg_exists ip1 a1 m 0 ->
  (forall i, 0 <= i < size -> arg_exists ip2 a2 m i /\ result_exists op rb m i) ->
  computes (binary_0d_1d f dom rng None ip1 ip2 op a1 a2 rb (whole1 size)) op rb size
    (fun i => binary_outcome f dom rng (arg_at ip1 a1 m 0) (arg_at ip2 a2 m i)) m.
Proof.
  intros Hs Hm H1 H2 Hap He Hex.
  destruct (local1_sequential _ _ _ _ _ _ Hs
    (local_binary_0d_1d f dom rng None ip1 ip2 op a1 a2 rb size m Hm H1 Hap He Hex))
    as (m' & R & H & C).
  exists m'; split; [auto|split; auto]. intros i Hi. specialize (H i Hi).
  rewrite option_map_id in H. rewrite (neq_eqb rb a2) in H by auto. exact H.
Qed.

(** Raster and scalar. *)
Theorem C05_binary_2d_0d rows cols :
  0 <= rows -> 0 <= cols -> marks_result op rb -> a1 <> rb -> a2 <> rb ->
  policy_apart ip2 op rb -> arg_exists ip2 a2 m 0 ->
  (forall i, 0 <= i < rows * cols -> arg_exists ip1 a1 m i /\ result_exists op rb m i) ->
  computes (binary_2d_0d f dom rng ip1 ip2 op a1 a2 rb cols (whole2 rows cols)) op rb
    (rows * cols)
    (fun i => binary_outcome f dom rng (arg_at ip1 a1 m i) (arg_at ip2 a2 m 0)) m.
Proof.
  intros Hr Hc Hm H1 H2 Hap He Hex.
  destruct (local2_sequential _ _ _ _ _ _ _ Hr Hc
    (local_binary_2d_0d f dom rng ip1 ip2 op a1 a2 rb rows cols m Hc Hm H2 Hap He Hex))
    as (m' & R & H & C).
  exists m'; split; [auto|split; auto]. intros i Hi. specialize (H i Hi).
  rewrite (neq_eqb rb a1) in H by auto. exact H.
Qed.

(** Scalar and raster. *)
Theorem C05_binary_0d_2d rows cols :
  0 <= rows -> 0 <= cols -> marks_result op rb -> a1 <> rb -> a2 <> rb ->
  policy_apart ip1 op rb -> arg_exists ip1 a1 m 0 ->
  (forall i, 0 <= i < rows * cols -> arg_exists ip2 a2 m i /\ result_exists op rb m i) ->
  computes (binary_0d_2d f dom rng ip1 ip2 op a1 a2 rb cols (whole2 rows cols)) op rb
    (rows * cols)
    (fun i => binary_outcome f dom rng (arg_at ip1 a1 m 0) (arg_at ip2 a2 m i)) m.
Proof.
  intros Hr Hc Hm H1 H2 Hap He Hex.
  destruct (local2_sequential _ _ _ _ _ _ _ Hr Hc
    (local_binary_0d_2d f dom rng ip1 ip2 op a1 a2 rb rows cols m Hc Hm H1 Hap He Hex))
    as (m' & R & H & C).
  exists m'; split; [auto|split; auto]. intros i Hi. specialize (H i Hi).
  rewrite (neq_eqb rb a2) in H by auto. exact H.
Qed.

(** Two scalars. *)
Theorem C05_binary_0d_0d :
  marks_result op rb -> a1 <> rb -> a2 <> rb ->
  arg_exists ip1 a1 m 0 -> arg_exists ip2 a2 m 0 -> result_exists op rb m 0 ->
  computes (binary_0d_0d f dom rng ip1 ip2 op a1 a2 rb) op rb 1
    (fun i => binary_outcome f dom rng (arg_at ip1 a1 m 0) (arg_at ip2 a2 m 0)) m.
Proof.
  intros Hm H1 H2 He1 He2 Hre.
  destruct (run_binary_cell f dom rng None ip1 ip2 op a1 a2 rb m 0 Hm Hre He1 He2)
    as (m' & R & H).
  exists m'; split; [exact R|]. split.
  - intros i Hi. assert (i = 0) by lia; subst i.
    rewrite option_map_id in H. rewrite (neq_eqb rb a1), (neq_eqb rb a2) in H by auto. exact H.
  - eapply (writes_changes_only (zrange 0 1)); [|exact R].
    apply writes_binary_cell; auto.
Qed.
End C05.
Print Assumptions C05_binary_1d_1d.
Print Assumptions C05_binary_2d_2d.
Print Assumptions C05_binary_1d_0d.
Print Assumptions C05_binary_0d_1d.
Print Assumptions C05_binary_2d_0d.
Print Assumptions C05_binary_0d_2d.
Print Assumptions C05_binary_0d_0d.

(** uint8 addition with the library's range check, as a concrete operation. *)
Definition add8 (x y : Z) : Z := (x + y) mod 256.
Definition add8_range (x y r : Z) : bool := negb (r <? x).
Definition always2 (x y : Z) : bool := true.

(** Three elements: both valid, second argument no-data, overflow. *)
Definition case_mem : mem Z :=
  mem_of [[1; 2; 200]; [10; 20; 100]; [0; 7; 0]]
         [[false; false; false]; [false; true; false]; [false; false; false]].

Example C05_case :
  (forall i, 0 <= i < 3 ->
     arg_exists (DetectByMask 0 true) 0%nat case_mem i /\
     arg_exists (DetectByMask 1 true) 1%nat case_mem i /\
     result_exists (MarkByMask 2 true) 2%nat case_mem i) /\
  let r := run (binary_1d_1d add8 always2 add8_range None (DetectByMask 0 true)
                  (DetectByMask 1 true) (MarkByMask 2 true) 0 1 2 (whole1 3)) case_mem in
  values_of r 2 3 = [Some 11; Some 7; Some 44] /\
  mask_of r 2 3 = [Some false; Some true; Some true].
Proof.
  split; [|split; reflexivity].
  intros i Hi. assert (H : i = 0 \/ i = 1 \/ i = 2) by lia.
  destruct H as [->|[->| ->]]; repeat split; discriminate.
Qed.

(** ** C06: unary local operations *)
Section C06.
Context {V : Type}.
Variables (f : V -> V) (dom : V -> bool) (rng : V -> V -> bool).
Variables (ip : inpol V) (op : outpol V) (a rb : buf) (m : mem V).

Theorem C06_unary_1d size :
  0 <= size -> marks_result op rb -> a <> rb ->
  (forall i, 0 <= i < size -> arg_exists ip a m i /\ result_exists op rb m i) ->
  computes (unary_1d f dom rng ip op a rb (whole1 size)) op rb size
    (fun i => unary_outcome f dom rng (arg_at ip a m i)) m.
Proof.
  intros Hs Hm H1 Hex.
  destruct (local1_sequential _ _ _ _ _ _ Hs
    (local_unary_1d f dom rng ip op a rb size m Hm Hex)) as (m' & R & H & C).
  exists m'; split; [auto|split; auto]. intros i Hi. specialize (H i Hi).
  rewrite (neq_eqb rb a) in H by auto. exact H.
Qed.

Theorem C06_unary_2d rows cols :
  0 <= rows -> 0 <= cols -> marks_result op rb -> a <> rb ->
  (forall i, 0 <= i < rows * cols -> arg_exists ip a m i /\ result_exists op rb m i) ->
  computes (unary_2d f dom rng ip op a rb cols (whole2 rows cols)) op rb (rows * cols)
    (fun i => unary_outcome f dom rng (arg_at ip a m i)) m.
Proof.
  intros Hr Hc Hm H1 Hex.
  destruct (local2_sequential _ _ _ _ _ _ _ Hr Hc
    (local_unary_2d f dom rng ip op a rb rows cols m Hc Hm Hex)) as (m' & R & H & C).
  exists m'; split; [auto|split; auto]. intros i Hi. specialize (H i Hi).
  rewrite (neq_eqb rb a) in H by auto. exact H.
Qed.

Theorem C06_unary_0d :
  marks_result op rb -> a <> rb -> arg_exists ip a m 0 -> result_exists op rb m 0 ->
  computes (unary_0d f dom rng ip op a rb) op rb 1
    (fun i => unary_outcome f dom rng (arg_at ip a m 0)) m.
Proof.
  intros Hm H1 He Hre.
  destruct (run_unary_cell f dom rng ip op a rb m 0 Hm Hre He) as (m' & R & H).
  exists m'; split; [exact R|]. split.
  - intros i Hi. assert (i = 0) by lia; subst i.
    rewrite (neq_eqb rb a) in H by auto. exact H.
  - eapply (writes_changes_only (zrange 0 1)); [|exact R]. apply writes_unary_cell; auto.
Qed.
End C06.
Print Assumptions C06_unary_1d.
Print Assumptions C06_unary_2d.
Print Assumptions C06_unary_0d.

(** Reciprocal of 60 with domain "not zero", on a raster of two rows and two columns, marking
    by value. *)
Example C06_case :
  let m := mem_of [[1; 0; 4; 5]; [9; 9; 9; 9]] [[false; false; false; true]] in
  (forall i, 0 <= i < 2 * 2 ->
     arg_exists (DetectByMask 0 true) 0%nat m i /\ result_exists (MarkByValue 1 (-1)) 1%nat m i) /\
  values_of (run (unary_2d (fun x => 60 / x) (fun x => negb (x =? 0)) (fun _ r => r <? 50)
              (DetectByMask 0 true) (MarkByValue 1 (-1)) 0 1 2 (whole2 2 2)) m) 1 4
    = [Some (-1); Some (-1); Some 15; Some (-1)].
Proof.
  split; [|reflexivity].
  intros i Hi. assert (H : i = 0 \/ i = 1 \/ i = 2 \/ i = 3) by lia.
  destruct H as [->|[->|[->| ->]]]; repeat split; discriminate.
Qed.

(** ** C07: nullary operations, disaggregation, fill, defined *)
Section C07.
Context {V : Type}.
Variables (ip : inpol V) (op : outpol V) (a rb : buf) (m : mem V).

(** A nullary operation [g] is applied to the result elements that are not no-data; the
    others are marked. *)
Theorem C07_nullary_1d (g : V -> V) size :
  0 <= size -> marks_result op rb ->
  (forall i, 0 <= i < size -> readable ip m i /\ result_exists op rb m i) ->
  computes (nullary_1d g ip op rb (whole1 size)) op rb size
    (fun i => match arg_at ip rb m i with Some old => Value (g old) | None => NoData end) m.
Proof.
  intros Hs Hm Hex.
  destruct (local1_sequential _ _ _ _ _ _ Hs (local_nullary_1d g ip op rb size m Hm Hex))
    as (m' & R & H & C).
  exists m'; split; [auto|split; auto]. intros i Hi. specialize (H i Hi).
  unfold nullary_outcome in H. unfold arg_at. destruct (nd_at ip m i); auto.
Qed.

Theorem C07_nullary_2d (g : V -> V) rows cols :
  0 <= rows -> 0 <= cols -> marks_result op rb ->
  (forall i, 0 <= i < rows * cols -> readable ip m i /\ result_exists op rb m i) ->
  computes (nullary_2d g ip op rb cols (whole2 rows cols)) op rb (rows * cols)
    (fun i => match arg_at ip rb m i with Some old => Value (g old) | None => NoData end) m.
Proof.
  intros Hr Hc Hm Hex.
  destruct (local2_sequential _ _ _ _ _ _ _ Hr Hc
    (local_nullary_2d g ip op rb rows cols m Hc Hm Hex)) as (m' & R & H & C).
  exists m'; split; [auto|split; auto]. intros i Hi. specialize (H i Hi).
  unfold nullary_outcome in H. unfold arg_at. destruct (nd_at ip m i); auto.
Qed.

(** Disaggregation: every element gets the outcome of the scalar. *)
Theorem C07_disaggregate_1d f dom rng size :
  0 <= size -> marks_result op rb -> a <> rb -> policy_apart ip op rb ->
  arg_exists ip a m 0 -> (forall i, 0 <= i < size -> result_exists op rb m i) ->
  computes (disaggregate_1d f dom rng ip op a rb (whole1 size)) op rb size
    (fun _ => unary_outcome f dom rng (arg_at ip a m 0)) m.
Proof.
  intros Hs Hm Ha Hap He Hex.
  exact (local1_sequential _ _ _ _ _ _ Hs
    (local_disaggregate_1d f dom rng ip op a rb size m Hm Ha Hap He Hex)).
Qed.

Theorem C07_disaggregate_2d f dom rng rows cols :
  0 <= rows -> 0 <= cols -> marks_result op rb -> a <> rb -> policy_apart ip op rb ->
  arg_exists ip a m 0 -> (forall i, 0 <= i < rows * cols -> result_exists op rb m i) ->
  computes (disaggregate_2d f dom rng ip op a rb cols (whole2 rows cols)) op rb (rows * cols)
    (fun _ => unary_outcome f dom rng (arg_at ip a m 0)) m.
Proof.
  intros Hr Hc Hm Ha Hap He Hex.
  exact (local2_sequential _ _ _ _ _ _ _ Hr Hc
    (local_disaggregate_2d f dom rng ip op a rb rows cols m Hc Hm Ha Hap He Hex)).
Qed.
End C07.

(** [fill] writes the value everywhere, and nothing else. *)
Theorem C07_fill_1d {V} (ip : inpol V) (a rb : buf) (m : mem V) size v :
  0 <= size -> a <> rb -> policy_apart ip DontMarkNoData rb -> arg_at ip a m 0 = Some v ->
  arg_exists ip a m 0 -> (forall i, 0 <= i < size -> mval m rb i <> None) ->
  exists m', run (fill_1d ip DontMarkNoData a rb (whole1 size)) m = Some (tt, m') /\
    (forall i, 0 <= i < size -> mval m' rb i = Some v) /\
    changes_only (V := V) DontMarkNoData rb (zrange 0 size) m m'.
Proof.
  intros Hs Ha Hap Hv He Hex.
  destruct (C07_disaggregate_1d ip DontMarkNoData a rb m (fun v => v) (fun _ => true)
    (fun _ _ => true) size Hs I Ha Hap He) as (m' & R & H & C).
  { intros i Hi; split; [apply Hex; auto|exact I]. }
  exists m'; split; [exact R|split; auto]. intros i Hi. destruct (H i Hi) as [E _].
  rewrite E, Hv. specialize (Hex i Hi). destruct (mval m rb i); [reflexivity|congruence].
Qed.

Theorem C07_fill_2d {V} (ip : inpol V) (a rb : buf) (m : mem V) rows cols v :
  0 <= rows -> 0 <= cols -> a <> rb -> policy_apart ip DontMarkNoData rb ->
  arg_at ip a m 0 = Some v -> arg_exists ip a m 0 ->
  (forall i, 0 <= i < rows * cols -> mval m rb i <> None) ->
  exists m', run (fill_2d ip DontMarkNoData a rb cols (whole2 rows cols)) m = Some (tt, m') /\
    (forall i, 0 <= i < rows * cols -> mval m' rb i = Some v) /\
    changes_only (V := V) DontMarkNoData rb (zrange 0 (rows * cols)) m m'.
Proof.
  intros Hr Hc Ha Hap Hv He Hex.
  destruct (C07_disaggregate_2d ip DontMarkNoData a rb m (fun v => v) (fun _ => true)
    (fun _ _ => true) rows cols Hr Hc I Ha Hap He) as (m' & R & H & C).
  { intros i Hi; split; [apply Hex; auto|exact I]. }
  exists m'; split; [exact R|split; auto]. intros i Hi. destruct (H i Hi) as [E _].
  rewrite E, Hv. specialize (Hex i Hi). destruct (mval m rb i); [reflexivity|congruence].
Qed.

(** [defined] is 1 at the valid elements and 0 elsewhere; whatever was in the result does
    not matter (the policy must not look at the result). *)
Theorem C07_defined_1d {V} (zero one : V) (ip : inpol V) (z rb : buf) (m : mem V) size :
  0 <= size -> z <> rb -> mval m z 0 = Some zero -> policy_apart ip DontMarkNoData rb ->
  (forall i, 0 <= i < size -> readable ip m i /\ mval m rb i <> None) ->
  exists m', run (defined_1d one ip z rb size) m = Some (tt, m') /\
    (forall i, 0 <= i < size -> mval m' rb i = Some (if nd_at ip m i then zero else one)) /\
    changes_only (V := V) DontMarkNoData rb (zrange 0 size) m m'.
Proof.
  intros Hs Hz Hv Hap Hex.
  destruct (C07_fill_1d SkipNoData z rb m size zero Hs Hz I Hv) as (m1 & R1 & H1 & C1).
  { split; [exact I|congruence]. } { intros i Hi; apply Hex; auto. }
  destruct (C07_nullary_1d ip DontMarkNoData rb m1 (fun _ => one) size Hs I)
    as (m2 & R2 & H2 & C2).
  { intros i Hi. split; [eapply apart_nd; eauto; apply Hex; auto|].
    split; [|exact I]. rewrite H1 by auto; discriminate. }
  exists m2. unfold defined_1d. rewrite run_seq, R1. split; auto. split.
  - intros i Hi. destruct (H2 i Hi) as [E _]. rewrite E, H1 by auto. unfold arg_at.
    rewrite (proj1 (apart_nd ip DontMarkNoData rb _ m m1 i Hap C1)), H1 by auto.
    destruct (nd_at ip m i); reflexivity.
  - eapply changes_only_trans; eauto.
Qed.

Theorem C07_defined_2d {V} (zero one : V) (ip : inpol V) (z rb : buf) (m : mem V) rows cols :
  0 <= rows -> 0 <= cols -> z <> rb -> mval m z 0 = Some zero ->
  policy_apart ip DontMarkNoData rb ->
  (forall i, 0 <= i < rows * cols -> readable ip m i /\ mval m rb i <> None) ->
  exists m', run (defined_2d one ip z rb rows cols) m = Some (tt, m') /\
    (forall i, 0 <= i < rows * cols ->
       mval m' rb i = Some (if nd_at ip m i then zero else one)) /\
    changes_only (V := V) DontMarkNoData rb (zrange 0 (rows * cols)) m m'.
Proof.
  intros Hr Hc Hz Hv Hap Hex.
  destruct (C07_fill_2d SkipNoData z rb m rows cols zero Hr Hc Hz I Hv) as (m1 & R1 & H1 & C1).
  { split; [exact I|congruence]. } { intros i Hi; apply Hex; auto. }
  destruct (C07_nullary_2d ip DontMarkNoData rb m1 (fun _ => one) rows cols Hr Hc I)
    as (m2 & R2 & H2 & C2).
  { intros i Hi. split; [eapply apart_nd; eauto; apply Hex; auto|].
    split; [|exact I]. rewrite H1 by auto; discriminate. }
  exists m2. unfold defined_2d. rewrite run_seq, R1. split; auto. split.
  - intros i Hi. destruct (H2 i Hi) as [E _]. rewrite E, H1 by auto. unfold arg_at.
    rewrite (proj1 (apart_nd ip DontMarkNoData rb _ m m1 i Hap C1)), H1 by auto.
    destruct (nd_at ip m i); reflexivity.
  - eapply changes_only_trans; eauto.
Qed.
Print Assumptions C07_nullary_1d.
Print Assumptions C07_nullary_2d.
Print Assumptions C07_disaggregate_1d.
Print Assumptions C07_disaggregate_2d.
Print Assumptions C07_fill_1d.
Print Assumptions C07_fill_2d.
Print Assumptions C07_defined_1d.
Print Assumptions C07_defined_2d.

Example C07_case :
  let m := mem_of [[0]; [7; 8; 9; 9]] [[]; []; [false; true; false; false]] in
  (forall i, 0 <= i < 2 * 2 -> readable (V := Z) (DetectByMask 2 true) m i /\
     mval m 1%nat i <> None) /\
  values_of (run (defined_2d 1 (DetectByMask 2 true) 0 1 2 2) m) 1 4
    = [Some 1; Some 0; Some 1; Some 1].
Proof.
  split; [|reflexivity].
  intros i Hi. assert (H : i = 0 \/ i = 1 \/ i = 2 \/ i = 3) by lia.
  destruct H as [->|[->|[->| ->]]]; repeat split; discriminate.
Qed.

(** ** C08: n-ary local operations *)

(** When the input policies only concern the first two arguments and every step of the fold
    is within domain and range, each element gets the left fold over all arguments, or is
    marked if one of the first two is no-data. *)
Theorem C08_n_ary_left_fold {V} (f : V -> V -> V) dom rng (ip1 ip2 : inpol V) (op : outpol V)
    (rb : buf) size a1 a2 rest (m : mem V) :
  0 <= size -> marks_result op rb -> policy_apart ip1 op rb -> policy_apart ip2 op rb ->
  a1 <> rb -> a2 <> rb -> (forall a, In a rest -> a <> rb) ->
  (forall i, 0 <= i < size ->
     arg_exists ip1 a1 m i /\ arg_exists ip2 a2 m i /\ result_exists op rb m i /\
     (forall a, In a rest -> mval m a i <> None)) ->
  (forall i x, 0 <= i < size -> arg_at ip1 a1 m i = Some x -> arg_at ip2 a2 m i <> None ->
     steps_ok f dom rng x (map (fun a => mval m a i) (a2 :: rest))) ->
  computes (n_ary_1d f dom rng ip1 ip2 op rb size a1 a2 rest) op rb size
    (fun i =>
       match fold_valid f (arg_at ip1 a1 m i)
               (arg_at ip2 a2 m i :: map (fun a => arg_at SkipNoData a m i) rest) with
       | Some v => Value v
       | None => NoData
       end) m.
Proof.
  intros Hs Hm Hp1 Hp2 Ha1 Ha2 Hrest Hex Hok.
  destruct (n_ary_correct f dom rng ip1 ip2 op rb size Hs Hm Hp1 Hp2 rest a1 a2 m Ha2 Hrest Hex)
    as (m' & R & H & C).
  { intros i x Hi N1 N2 X. apply Hok; auto; unfold arg_at.
    - rewrite N1; auto.
    - rewrite N2. destruct (Hex i Hi) as (_ & (_ & E) & _). exact E. }
  exists m'; split; [auto|split; auto]. intros i Hi. specialize (H i Hi).
  assert (Hnone : forall l, fold_valid f None l = None) by (induction l; simpl; auto).
  unfold n_outcome in H. unfold arg_at at 1 2.
  cbn [fold_valid map] in *.
  change (fun a => arg_at SkipNoData a m i) with (fun a => mval m a i).
  destruct (nd_at ip1 m i); simpl in H; [rewrite Hnone; auto|].
  destruct (nd_at ip2 m i); simpl in H; auto.
  destruct (mval m a1 i); rewrite Hnone; auto.
Qed.
Print Assumptions C08_n_ary_left_fold.

Example C08_case :
  let m := mem_of [[1; 2]; [10; 20]; [100; 100]; [0; 0]] [[false; true]; []; []; [false; false]] in
  let r := run (n_ary_1d add8 always2 add8_range (DetectByMask 0 true) SkipNoData
                  (MarkByMask 3 true) 3 2 0 1 [2%nat]) m in
  (forall i x, 0 <= i < 2 -> arg_at (DetectByMask 0 true) 0%nat m i = Some x ->
     steps_ok add8 always2 add8_range x (map (fun a => mval m a i) [1%nat; 2%nat])) /\
  values_of r 3 2 = [Some 111; Some 0] /\ mask_of r 3 2 = [Some false; Some true].
Proof.
  split; [|split; reflexivity].
  intros i x Hi. assert (H : i = 0 \/ i = 1) by lia.
  destruct H as [->| ->]; intros E; vm_compute in E; inversion E; subst; repeat split; reflexivity.
Qed.

(** The general claim is false.  (1) A third argument that is no-data is used all the same,
    whatever policy the caller passes for it: policies beyond the second are not consulted
    (the model, like the code, takes none).  (2) An out-of-range second step is not
    detected: 100 + 100 + 100 gives 44 without a mark.  (3) After a first step out of
    range, the no-data value itself is used as operand, and the mark is lost. *)
Theorem C08_general_refuted :
  (exists m : mem Z,
     mmsk m 2%nat 0 = Some true /\
     mval m 0%nat 0 = Some 1 /\ mval m 1%nat 0 = Some 2 /\
     let r := run (n_ary_1d add8 always2 add8_range (DetectByMask 0 true)
                     (DetectByMask 1 true) (MarkByMask 3 true) 3 1 0 1 [2%nat]) m in
     values_of r 3 1 = [Some 102] /\ mask_of r 3 1 = [Some false]) /\
  (exists m : mem Z,
     let r := run (n_ary_1d add8 always2 add8_range SkipNoData SkipNoData
                     (MarkByMask 3 true) 3 1 0 1 [2%nat]) m in
     mval m 0%nat 0 = Some 100 /\ mval m 1%nat 0 = Some 100 /\ mval m 2%nat 0 = Some 100 /\
     values_of r 3 1 = [Some 44] /\ mask_of r 3 1 = [Some false]) /\
  (exists m : mem Z,
     let r := run (n_ary_1d add8 always2 add8_range SkipNoData SkipNoData
                     (MarkByValue 3 0) 3 1 0 1 [2%nat]) m in
     mval m 0%nat 0 = Some 200 /\ mval m 1%nat 0 = Some 100 /\ mval m 2%nat 0 = Some 5 /\
     values_of r 3 1 = [Some 5]).
Proof.
  split; [|split].
  - exists (mem_of [[1]; [2]; [99]; [0]] [[false]; [false]; [true]; [false]]).
    repeat split; reflexivity.
  - exists (mem_of [[100]; [100]; [100]; [0]] [[]; []; []; [false]]).
    repeat split; reflexivity.
  - exists (mem_of [[200]; [100]; [5]; [0]] [[]; []; []; []]). repeat split; reflexivity.
Qed.
Print Assumptions C08_general_refuted.

(** ** C09: local operations touch nothing but the result *)

(** Whatever shares storage with what, and whichever block of elements they are given:
    if they end, only elements of the result in the block, and their marks, can differ. *)
Theorem C09_frame_1d {V} (op : outpol V) (rb : buf) (r : range) (m m' : mem V) p :
  marks_result op rb ->
  ( (exists f dom rng ip a, p = unary_1d f dom rng ip op a rb r) \/
    (exists f dom rng ip a, p = disaggregate_1d f dom rng ip op a rb r) \/
    (exists g ip, p = nullary_1d g ip op rb r) \/
    (exists f dom rng bi ip1 ip2 a1 a2, p = binary_1d_1d f dom rng bi ip1 ip2 op a1 a2 rb r) \/
    (exists f dom rng ip1 ip2 a1 a2, p = binary_1d_0d f dom rng ip1 ip2 op a1 a2 rb r) \/
    (exists f dom rng bi ip1 ip2 a1 a2, p = binary_0d_1d f dom rng bi ip1 ip2 op a1 a2 rb r) ) ->
  run p m = Some (tt, m') ->
  changes_only op rb (indices r) m m'.
Proof.
  intros Hm Hp Hr. apply (writes_changes_only _ _ _ p m tt m'); auto.
  destruct (writes_local_1d op rb r Hm) as (A1 & A2 & A3 & A4 & A5 & A6).
  destruct Hp as [(f & d & g & ip & a & ->)|[(f & d & g & ip & a & ->)|[(g & ip & ->)|
    [(f & d & g & bi & i1 & i2 & a1 & a2 & ->)|[(f & d & g & i1 & i2 & a1 & a2 & ->)|
    (f & d & g & bi & i1 & i2 & a1 & a2 & ->)]]]]]; auto.
Qed.

Theorem C09_frame_2d {V} (op : outpol V) (rb : buf) cols (r : block2) (m m' : mem V) p :
  marks_result op rb ->
  ( (exists f dom rng ip a, p = unary_2d f dom rng ip op a rb cols r) \/
    (exists f dom rng ip a, p = disaggregate_2d f dom rng ip op a rb cols r) \/
    (exists g ip, p = nullary_2d g ip op rb cols r) \/
    (exists f dom rng ip1 ip2 a1 a2, p = binary_2d_2d f dom rng ip1 ip2 op a1 a2 rb cols r) \/
    (exists f dom rng ip1 ip2 a1 a2, p = binary_2d_0d f dom rng ip1 ip2 op a1 a2 rb cols r) \/
    (exists f dom rng ip1 ip2 a1 a2, p = binary_0d_2d f dom rng ip1 ip2 op a1 a2 rb cols r) ) ->
  run p m = Some (tt, m') ->
  changes_only op rb (block_elements cols r) m m'.
Proof.
  intros Hm Hp Hr. apply (writes_changes_only _ _ _ p m tt m'); auto.
  destruct (writes_local_2d op rb cols r Hm) as (A1 & A2 & A3 & A4 & A5 & A6).
  destruct Hp as [(f & d & g & ip & a & ->)|[(f & d & g & ip & a & ->)|[(g & ip & ->)|
    [(f & d & g & i1 & i2 & a1 & a2 & ->)|[(f & d & g & i1 & i2 & a1 & a2 & ->)|
    (f & d & g & i1 & i2 & a1 & a2 & ->)]]]]]; auto.
Qed.
Print Assumptions C09_frame_1d.
Print Assumptions C09_frame_2d.

(** In place, on elements 1 and 2 only: element 0, the other argument and its mask stay. *)
Example C09_case :
  let r := run (binary_1d_1d add8 always2 add8_range None SkipNoData (DetectByMask 1 true)
                  (MarkByMask 0 true) 0 1 0 {| rbegin := 1; rend := 3 |}) case_mem in
  values_of r 0 3 = [Some 1; Some 2; Some 44] /\ mask_of r 0 3 = [Some false; Some true; Some false]
  /\ values_of r 1 3 = [Some 10; Some 20; Some 100].
Proof. repeat split. Qed.

(** ** C10: parallel execution *)
Definition sequential_and_parallel_1d {V} (size : Z) (opf : range -> prog V unit) (m : mem V)
  : Prop :=
  exists m', run (opf (whole1 size)) m = Some (tt, m') /\
    forall nr_threads, 1 <= nr_threads ->
      exists tasks, par1 nr_threads size opf = Some tasks /\ always_yields tasks m m'.

Definition sequential_and_parallel_2d {V} (rows cols : Z) (opf : block2 -> prog V unit)
    (m : mem V) : Prop :=
  exists m', run (opf (whole2 rows cols)) m = Some (tt, m') /\
    forall nr_threads, 1 <= nr_threads ->
      exists tasks, par2 nr_threads rows cols opf = Some tasks /\ always_yields tasks m m'.

Lemma seq_par_1d {V} (op : outpol V) rb size opf o m : 0 <= size < 2 ^ 64 ->
  local1 op rb size opf o m -> sequential_and_parallel_1d size opf m.
Proof.
  intros Hs L. destruct (local1_sequential op rb size opf o m) as (m' & R & _); auto; try lia.
  exists m'; split; auto. intros n Hn. eapply local1_parallel; eauto.
Qed.

Lemma seq_par_2d {V} (op : outpol V) rb rows cols opf o m :
  0 <= rows < 2 ^ 64 -> 0 <= cols ->
  local2 op rb rows cols opf o m -> sequential_and_parallel_2d rows cols opf m.
Proof.
  intros Hs Hc L.
  destruct (local2_sequential op rb rows cols opf o m) as (m' & R & _); auto; try lia.
  exists m'; split; auto. intros n Hn. eapply local2_parallel; eauto.
Qed.

(** 1D.  The result may share storage with array arguments, but not with scalars. *)
Theorem C10_parallel_1d {V} (ip1 ip2 : inpol V) (op : outpol V) (a1 a2 rb : buf) size (m : mem V) :
  0 <= size < 2 ^ 64 -> marks_result op rb ->
  (forall i, 0 <= i < size -> result_exists op rb m i) ->
  (forall i, 0 <= i < size -> arg_exists ip1 a1 m i) ->
  (forall f dom rng, sequential_and_parallel_1d size (unary_1d f dom rng ip1 op a1 rb) m) /\
  (forall g, sequential_and_parallel_1d size (nullary_1d g ip1 op rb) m) /\
  ((forall i, 0 <= i < size -> arg_exists ip2 a2 m i) ->
   forall f dom rng bi,
     sequential_and_parallel_1d size (binary_1d_1d f dom rng bi ip1 ip2 op a1 a2 rb) m) /\
  (arg_exists ip2 a2 m 0 -> a2 <> rb -> policy_apart ip2 op rb ->
     (forall f dom rng, sequential_and_parallel_1d size (disaggregate_1d f dom rng ip2 op a2 rb) m) /\
     (forall f dom rng,
        sequential_and_parallel_1d size (binary_1d_0d f dom rng ip1 ip2 op a1 a2 rb) m) /\
     (forall f dom rng bi,
        sequential_and_parallel_1d size (binary_0d_1d f dom rng bi ip2 ip1 op a2 a1 rb) m)).
Proof.
  intros Hs Hm Hr He1. repeat split; intros.
  - eapply seq_par_1d; auto. apply local_unary_1d; auto.
  - eapply seq_par_1d; auto. apply local_nullary_1d; auto.
    intros i Hi; split; auto. apply He1; auto.
  - eapply seq_par_1d; auto. apply local_binary_1d_1d; auto.
  - eapply seq_par_1d; auto. apply local_disaggregate_1d; auto.
  - eapply seq_par_1d; auto. apply local_binary_1d_0d; auto.
  - eapply seq_par_1d; auto. apply local_binary_0d_1d; auto.
Qed.

Theorem C10_parallel_2d {V} (ip1 ip2 : inpol V) (op : outpol V) (a1 a2 rb : buf) rows cols
    (m : mem V) :
  0 <= rows < 2 ^ 64 -> 0 <= cols -> marks_result op rb ->
  (forall i, 0 <= i < rows * cols -> result_exists op rb m i) ->
  (forall i, 0 <= i < rows * cols -> arg_exists ip1 a1 m i) ->
  (forall f dom rng, sequential_and_parallel_2d rows cols (unary_2d f dom rng ip1 op a1 rb cols) m) /\
  (forall g, sequential_and_parallel_2d rows cols (nullary_2d g ip1 op rb cols) m) /\
  ((forall i, 0 <= i < rows * cols -> arg_exists ip2 a2 m i) ->
   forall f dom rng,
     sequential_and_parallel_2d rows cols (binary_2d_2d f dom rng ip1 ip2 op a1 a2 rb cols) m) /\
  (arg_exists ip2 a2 m 0 -> a2 <> rb -> policy_apart ip2 op rb ->
     (forall f dom rng,
        sequential_and_parallel_2d rows cols (disaggregate_2d f dom rng ip2 op a2 rb cols) m) /\
     (forall f dom rng,
        sequential_and_parallel_2d rows cols (binary_2d_0d f dom rng ip1 ip2 op a1 a2 rb cols) m) /\
     (forall f dom rng,
        sequential_and_parallel_2d rows cols (binary_0d_2d f dom rng ip2 ip1 op a2 a1 rb cols) m)).
Proof.
  intros Hs Hc Hm Hr He1. repeat split; intros.
  - eapply seq_par_2d; auto. apply local_unary_2d; auto.
  - eapply seq_par_2d; auto. apply local_nullary_2d; auto.
    intros i Hi; split; auto. apply He1; auto.
  - eapply seq_par_2d; auto. apply local_binary_2d_2d; auto.
  - eapply seq_par_2d; auto. apply local_disaggregate_2d; auto.
  - eapply seq_par_2d; auto. apply local_binary_2d_0d; auto.
  - eapply seq_par_2d; auto. apply local_binary_0d_2d; auto.
Qed.
Print Assumptions C10_parallel_1d.
Print Assumptions C10_parallel_2d.

(** Two threads, three elements: two blocks, and an interleaving of them, in place. *)
Example C10_case :
  let opf := binary_1d_1d add8 always2 add8_range None (DetectByMask 0 true)
               (DetectByMask 1 true) (MarkByMask 0 true) 0 1 0 in
  exists tasks ps m', par1 2 3 opf = Some tasks /\ length tasks = 3%nat /\
    exec (concat (repeat [2; 0; 1]%nat 20)) tasks case_mem = Some (ps, m') /\
    all_done ps = true /\
    values_of (Some (tt, m')) 0 3 = values_of (run (opf (whole1 3)) case_mem) 0 3.
Proof. do 3 eexists. repeat split. Qed.

(** ** C11: the result shares storage with an argument *)

(** Every element is computed from the original values; the range policy sees, instead of
    the value of an argument that shares storage, the result. *)
Theorem C11_in_place_1d {V} (f : V -> V -> V) dom rng (ip1 ip2 : inpol V) (op : outpol V)
    (a1 a2 rb : buf) size (m : mem V) :
  0 <= size -> marks_result op rb ->
  (forall i, 0 <= i < size ->
     arg_exists ip1 a1 m i /\ arg_exists ip2 a2 m i /\ result_exists op rb m i) ->
  computes (binary_1d_1d f dom rng None ip1 ip2 op a1 a2 rb (whole1 size)) op rb size
    (fun i => binary_outcome f dom
       (fun x y r => rng (if Nat.eqb rb a1 then r else x) (if Nat.eqb rb a2 then r else y) r)
       (arg_at ip1 a1 m i) (arg_at ip2 a2 m i)) m.
Proof.
  intros Hs Hm Hex.
  destruct (local1_sequential _ _ _ _ _ _ Hs
    (local_binary_1d_1d f dom rng None ip1 ip2 op a1 a2 rb size m Hm Hex)) as (m' & R & H & C).
  exists m'; split; [auto|split; auto]. intros i Hi. specialize (H i Hi).
  rewrite option_map_id in H. exact H.
Qed.

Theorem C11_in_place_2d {V} (f : V -> V -> V) dom rng (ip1 ip2 : inpol V) (op : outpol V)
    (a1 a2 rb : buf) rows cols (m : mem V) :
  0 <= rows -> 0 <= cols -> marks_result op rb ->
  (forall i, 0 <= i < rows * cols ->
     arg_exists ip1 a1 m i /\ arg_exists ip2 a2 m i /\ result_exists op rb m i) ->
  computes (binary_2d_2d f dom rng ip1 ip2 op a1 a2 rb cols (whole2 rows cols)) op rb
    (rows * cols)
    (fun i => binary_outcome f dom
       (fun x y r => rng (if Nat.eqb rb a1 then r else x) (if Nat.eqb rb a2 then r else y) r)
       (arg_at ip1 a1 m i) (arg_at ip2 a2 m i)) m.
Proof.
  intros Hr Hc Hm Hex.
  exact (local2_sequential _ _ _ _ _ _ _ Hr Hc
    (local_binary_2d_2d f dom rng ip1 ip2 op a1 a2 rb rows cols m Hc Hm Hex)).
Qed.

(** In particular, if the range policy does not look at the arguments, sharing storage makes
    no difference. *)
Corollary C11_in_place_unchecked {V} (f : V -> V -> V) dom (rng : V -> bool)
    (ip1 ip2 : inpol V) (op : outpol V) (a1 a2 rb : buf) size (m : mem V) :
  0 <= size -> marks_result op rb ->
  (forall i, 0 <= i < size ->
     arg_exists ip1 a1 m i /\ arg_exists ip2 a2 m i /\ result_exists op rb m i) ->
  computes (binary_1d_1d f dom (fun _ _ r => rng r) None ip1 ip2 op a1 a2 rb (whole1 size)) op
    rb size
    (fun i => binary_outcome f dom (fun _ _ r => rng r) (arg_at ip1 a1 m i) (arg_at ip2 a2 m i)) m.
Proof. apply (C11_in_place_1d f dom (fun _ _ r => rng r)). Qed.

(** With the library's range check of unsigned addition, an overflow is then missed: the
    same operands are marked when the result is stored elsewhere. *)
Theorem C11_overflow_missed_refuted :
  exists m : mem Z,
    let go rb := run (binary_1d_1d add8 always2 add8_range None SkipNoData SkipNoData
                        (MarkByMask 2 true) 0 1 rb (whole1 1)) m in
    mval m 0%nat 0 = Some 200 /\ mval m 1%nat 0 = Some 100 /\
    values_of (go 2%nat) 2 1 = [Some 44] /\ mask_of (go 2%nat) 2 1 = [Some true] /\
    values_of (go 0%nat) 0 1 = [Some 44] /\ mask_of (go 0%nat) 2 1 = [Some false].
Proof.
  exists (mem_of [[200]; [100]; [0]] [[]; []; [false]]). repeat split.
Qed.
Print Assumptions C11_in_place_1d.
Print Assumptions C11_in_place_2d.
Print Assumptions C11_in_place_unchecked.
Print Assumptions C11_overflow_missed_refuted.

(** ** C12: value types of the arguments of a 1D operation *)

(** With argument types T1 and T2 and the conversion [c] from T2 to T1, the operation computes
    [f] on the first argument and on the converted second one. *)
Theorem C12_second_argument_converted {V} (f : V -> V -> V) dom rng (c : V -> V)
    (ip1 ip2 : inpol V) (op : outpol V) (a1 a2 rb : buf) size (m : mem V) :
  0 <= size -> marks_result op rb -> a1 <> rb -> a2 <> rb ->
  (forall i, 0 <= i < size ->
     arg_exists ip1 a1 m i /\ arg_exists ip2 a2 m i /\ result_exists op rb m i) ->
  computes (binary_1d_1d f dom rng (Some c) ip1 ip2 op a1 a2 rb (whole1 size)) op rb size
    (fun i => binary_outcome f dom rng (arg_at ip1 a1 m i)
                (option_map c (arg_at ip2 a2 m i))) m.
Proof.
  intros Hs Hm H1 H2 Hex.
  destruct (local1_sequential _ _ _ _ _ _ Hs
    (local_binary_1d_1d f dom rng (Some c) ip1 ip2 op a1 a2 rb size m Hm Hex))
    as (m' & R & H & C).
  exists m'; split; [auto|split; auto]. intros i Hi. specialize (H i Hi).
  rewrite (neq_eqb rb a1) in H by auto. exact H.
Qed.

Theorem C12_second_argument_converted_0d_1d {V} (f : V -> V -> V) dom rng (c : V -> V)
    (ip1 ip2 : inpol V) (op : outpol V) (a1 a2 rb : buf) size (m : mem V) :
  0 <= size -> marks_result op rb -> a1 <> rb -> a2 <> rb -> policy_apart ip1 op rb ->
  arg_exists ip1 a1 m 0 ->
  (forall i, 0 <= i < size -> arg_exists ip2 a2 m i /\ result_exists op rb m i) ->
  computes (binary_0d_1d f dom rng (Some c) ip1 ip2 op a1 a2 rb (whole1 size)) op rb size
    (fun i => binary_outcome f dom rng (arg_at ip1 a1 m 0)
                (option_map c (arg_at ip2 a2 m i))) m.
Proof.
  intros Hs Hm H1 H2 Hap He Hex.
  exact (local1_sequential _ _ _ _ _ _ Hs
    (local_binary_0d_1d f dom rng (Some c) ip1 ip2 op a1 a2 rb size m Hm H1 Hap He Hex)).
Qed.

(** So the values of the arrays are used unchanged when every valid second value is
    representable in the first type. *)
Corollary C12_representable {V} (f : V -> V -> V) dom rng (c : V -> V)
    (ip1 ip2 : inpol V) (op : outpol V) (a1 a2 rb : buf) size (m : mem V) :
  0 <= size -> marks_result op rb -> a1 <> rb -> a2 <> rb ->
  (forall i, 0 <= i < size ->
     arg_exists ip1 a1 m i /\ arg_exists ip2 a2 m i /\ result_exists op rb m i) ->
  (forall i y, 0 <= i < size -> arg_at ip2 a2 m i = Some y -> c y = y) ->
  computes (binary_1d_1d f dom rng (Some c) ip1 ip2 op a1 a2 rb (whole1 size)) op rb size
    (fun i => binary_outcome f dom rng (arg_at ip1 a1 m i) (arg_at ip2 a2 m i)) m.
Proof.
  intros Hs Hm H1 H2 Hex Hc.
  destruct (C12_second_argument_converted f dom rng c ip1 ip2 op a1 a2 rb size m Hs Hm H1 H2 Hex)
    as (m' & R & H & C).
  exists m'; split; [auto|split; auto]. intros i Hi. specialize (H i Hi).
  destruct (arg_at ip2 a2 m i) as [y|] eqn:E; auto. simpl in H.
  rewrite (Hc i y Hi E) in H; auto.
Qed.

(** Otherwise not: a uint8 array holding 1 plus an int array holding 300 gives 45, not 301. *)
Theorem C12_narrowed_refuted :
  exists m : mem Z,
    mval m 0%nat 0 = Some 1 /\ mval m 1%nat 0 = Some 300 /\
    values_of (run (binary_1d_1d Z.add always2 (fun _ _ _ => true) (Some (fun v => v mod 256))
                 SkipNoData SkipNoData DontMarkNoData 0 1 2 (whole1 1)) m) 2 1 = [Some 45] /\
    ~ computes (binary_1d_1d Z.add always2 (fun _ _ _ => true) (Some (fun v => v mod 256))
                 SkipNoData SkipNoData DontMarkNoData 0 1 2 (whole1 1)) DontMarkNoData 2 1
        (fun i => binary_outcome Z.add always2 (fun _ _ _ => true) (mval m 0%nat i)
                    (mval m 1%nat i)) m.
Proof.
  exists (mem_of [[1]; [300]; [0]] []). repeat split.
  intros (m' & R & H & _). specialize (H 0 ltac:(lia)). destruct H as [H _].
  assert (E : values_of (Some (tt, m')) 2 1 = [Some 45]) by (rewrite <- R; reflexivity).
  cbn in E. inversion E as [E1]. rewrite H in E1. vm_compute in E1. discriminate.
Qed.
Print Assumptions C12_second_argument_converted.
Print Assumptions C12_second_argument_converted_0d_1d.
Print Assumptions C12_representable.
Print Assumptions C12_narrowed_refuted.
