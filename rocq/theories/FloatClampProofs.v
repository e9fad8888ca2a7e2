(** * Proofs about clamping floating point numbers *)
From Coq Require Import ZArith Bool Lia SpecFloat.
From Verif Require Import LangModel ConcModel LoopModel PolicyModel LocalSpec IntsModel FloatModel IeeeSpec FloatSpec FloatProofs FloatProps
  CoreModel CoreSpec CoreProps FloatMedianProofs FloatClampModel FloatClampSpec.
Open Scope Z_scope.

Section Format.
Variable f : fmt.
Notation is_float := (is_float (fprec f) (femax f)).

Lemma less_below x y : is_float x -> is_float y -> is_nan x = false -> is_nan y = false -> float_less x y = true <-> below f x y.
Proof.
  intros X Y NX NY. destruct (compare_order f x y X Y NX NY) as (c & C1 & C2). unfold float_less, SFltb. rewrite C1.
  destruct (order_exclusive f x y) as (O1 & O2 & O3). destruct c; split; intros Q; try discriminate; auto; tauto.
Qed.
Lemma less_nan x y : is_nan x = true \/ is_nan y = true -> float_less x y = false.
Proof. intros [N|N]; [destruct x; try discriminate; destruct y as [[]|[]| |[]]; reflexivity|destruct y; try discriminate; destruct x as [[]|[]| |[]]; reflexivity]. Qed.
Lemma less_not x y : is_float x -> is_float y -> is_nan x = true \/ is_nan y = true \/ ~ below f x y -> float_less x y = false.
Proof.
  intros X Y H. destruct (is_nan x) eqn:NX; [apply less_nan; auto|]. destruct (is_nan y) eqn:NY; [apply less_nan; auto|].
  destruct H as [H|[H|H]]; try discriminate. destruct (float_less x y) eqn:E; auto. apply less_below in E; auto. contradiction.
Qed.
Lemma less_irrefl x : float_less x x = false.
Proof.
  destruct x as [[]|[]| |[] m e]; try reflexivity; unfold float_less, SFltb, SFcompare; rewrite Z.compare_refl, Pos.compare_cont_refl; reflexivity.
Qed.

Lemma clamped_moved v l h r : is_float v -> is_float l -> is_float h -> bounds_order f l h -> clamped float_less v l h r -> moved f v l h r.
Proof.
  intros V L H B (_ & _ & C1 & C2 & C3). split.
  - intros N. apply C1; apply less_nan; auto.
  - intros N. split; [|split].
    + intros NL Q. apply C2. apply less_below; auto.
    + intros NH Q. apply C3; [|apply less_below; auto]. apply less_not; auto. destruct (is_nan l) eqn:NL; auto. right. right.
      destruct B as [B|[B|B]]; try congruence. rewrite !(below_key f) in * by auto. lia.
    + intros Q1 Q2. apply C1; apply less_not; auto; destruct Q1, Q2; auto.
Qed.

Section Elements.
Variables (ip0 ip1 ip2 : inpol spec_float) (op : outpol spec_float) (a lo hi rb : buf) (m : mem spec_float).
Lemma bounded_clampable i il ih : element_bounded f ip0 ip1 ip2 op a lo hi rb m i il ih ->
  clampable float_less ip0 ip1 ip2 op a lo hi rb m i il ih.
Proof.
  intros (H1 & H2 & _ & H3). split; auto. split; auto. intros N. destruct (H3 N) as (R1 & R2 & l & h & E1 & E2 & L & H & B).
  split; auto. split; auto. exists l, h. split; auto. split; auto. apply less_not; auto. destruct B as [B|[B|B]]; auto.
Qed.
Lemma result_moved o i il ih : element_bounded f ip0 ip1 ip2 op a lo hi rb m i il ih ->
  clamp_result float_less ip0 a lo hi m o i il ih -> element_moved f ip0 a lo hi m o i il ih.
Proof.
  intros (_ & _ & HV & H3) C. unfold clamp_result in C. unfold element_moved. destruct (arg_at ip0 a m i) as [v|] eqn:E; auto.
  destruct C as (l & h & r & L & H & O & C). exists l, h, r. split; auto. split; auto. split; auto.
  assert (N : nd_at ip0 m i = false) by (unfold arg_at in E; destruct (nd_at ip0 m i); [discriminate|auto]).
  destruct (H3 N) as (_ & _ & l' & h' & E1 & E2 & FL & FH & B). unfold arg_at in E1, E2.
  destruct (nd_at ip1 m il); [discriminate|]. destruct (nd_at ip2 m ih); [discriminate|].
  assert (l' = l) by congruence. assert (h' = h) by congruence. subst. apply clamped_moved; auto.
Qed.
End Elements.
End Format.
