(** * Properties C31-C34: cover, if, clamp and merging of no-data *)
From Coq Require Import ZArith List Bool Lia.
From Verif Require Import LangModel LangProofs ConcModel IndexModel IndexSpec IndexProofs
  LoopModel LoopSpec LoopProofs PolicyModel LocalModel LocalSpec LocalProofs CoreModel CoreSpec
  CoreProofs ExampleMem.
Import ListNotations.
Open Scope Z_scope.

(** ** C31: cover *)
Section C31.
Context {V : Type}.
Variables (ip1 ip2 : inpol V) (op : outpol V) (a1 a2 rb : buf) (m : mem V).

Theorem C31_cover_0d_0d :
  marks_result op rb ->
  arg_exists ip1 a1 m 0 -> arg_exists ip2 a2 m 0 -> result_exists op rb m 0 ->
  computes (cover_0d_0d ip1 ip2 op a1 a2 rb) op rb 1
    (fun _ => cover_outcome (arg_at ip1 a1 m 0) (arg_at ip2 a2 m 0)) m.
Proof.
  intros Hm H1 H2 Hr. apply element_computes.
  - unfold cover_0d_0d, cover_cell. own_tac.
  - apply run_cover_cell; auto.
Qed.

Theorem C31_cover_2d_0d rows cols :
  0 <= rows -> 0 <= cols -> marks_result op rb -> scalar_apart ip2 a2 op rb m ->
  (forall i, 0 <= i < rows * cols -> arg_exists ip1 a1 m i /\ result_exists op rb m i) ->
  computes_2d (cover_2d_0d ip1 ip2 op a1 a2 rb cols) op rb rows cols
    (fun i => cover_outcome (arg_at ip1 a1 m i) (arg_at ip2 a2 m 0)) m.
Proof. intros Hr Hc Hm Hs Hex. apply local2_computes; auto. apply local_cover_2d_0d; auto. Qed.

Theorem C31_cover_2d_2d rows cols :
  0 <= rows -> 0 <= cols -> marks_result op rb ->
  (forall i, 0 <= i < rows * cols ->
     arg_exists ip1 a1 m i /\ arg_exists ip2 a2 m i /\ result_exists op rb m i) ->
  computes_2d (cover_2d_2d ip1 ip2 op a1 a2 rb cols) op rb rows cols
    (fun i => cover_outcome (arg_at ip1 a1 m i) (arg_at ip2 a2 m i)) m.
Proof. intros Hr Hc Hm Hex. apply local2_computes; auto. apply local_cover_2d_2d; auto. Qed.
End C31.
Print Assumptions C31_cover_0d_0d.
Print Assumptions C31_cover_2d_0d.
Print Assumptions C31_cover_2d_2d.

(** Four cells; the second cell of the first argument and the last two of the second are
    no-data, the third of the first too. *)
Definition cover_mem : mem Z :=
  mem_of [[1; 2; 3; 4]; [10; 20; 30; 40]; [0; 0; 0; 0]]
         [[false; true; true; false]; [false; false; true; true]; [false; false; false; false]].

Ltac four_cells i := assert (Hcells : i = 0 \/ i = 1 \/ i = 2 \/ i = 3) by lia;
  destruct Hcells as [-> | [-> | [-> | ->]]].

Example C31_case :
  marks_result (V := Z) (MarkByMask 2 true) 2 /\
  (forall i, 0 <= i < 2 * 2 ->
     arg_exists (DetectByMask 0 true) 0 cover_mem i /\
     arg_exists (DetectByMask 1 true) 1 cover_mem i /\
     result_exists (MarkByMask 2 true) 2 cover_mem i) /\
  let r := run (cover_2d_2d (DetectByMask 0 true) (DetectByMask 1 true) (MarkByMask 2 true)
                  0 1 2 2 (whole2 2 2)) cover_mem in
  values_of r 2 4 = [Some 1; Some 20; Some 0; Some 4] /\
  mask_of r 2 4 = [Some false; Some false; Some true; Some false].
Proof.
  split; [exact I|]. split; [|split; reflexivity].
  intros i Hi. four_cells i; repeat split; discriminate.
Qed.

(** ** C32: if_then and if_then_else *)
Section C32.
Context {V : Type}.
Variable truth : V -> bool.
Variables (ip0 ip1 ip2 : inpol V) (op : outpol V) (c t f rb : buf) (m : mem V).

Theorem C32_if_then_0d_0d :
  marks_result op rb ->
  arg_exists ip0 c m 0 -> arg_exists ip1 t m 0 -> result_exists op rb m 0 ->
  computes (if_then_0d_0d truth ip0 ip1 op c t rb) op rb 1
    (fun _ => if_then_outcome truth (arg_at ip0 c m 0) (arg_at ip1 t m 0)) m.
Proof.
  intros Hm H1 H2 Hr. apply element_computes.
  - unfold if_then_0d_0d. own_tac.
  - apply run_if_then_0d; auto.
Qed.

Theorem C32_if_then_else_0d_0d_0d :
  marks_result op rb ->
  arg_exists ip0 c m 0 -> arg_exists ip1 t m 0 -> arg_exists ip2 f m 0 ->
  result_exists op rb m 0 ->
  computes (if_then_else_0d_0d_0d truth ip0 ip1 ip2 op c t f rb) op rb 1
    (fun _ => if_then_else_outcome truth (arg_at ip0 c m 0) (arg_at ip1 t m 0)
       (arg_at ip2 f m 0)) m.
Proof.
  intros Hm H1 H2 H3 Hr. apply element_computes.
  - unfold if_then_else_0d_0d_0d, if_then_else_cell. own_tac.
  - apply run_if_then_else_cell; auto.
Qed.

Theorem C32_if_then_0d_2d rows cols :
  0 <= rows -> 0 <= cols -> marks_result op rb ->
  scalar_apart ip0 c op rb m ->
  (forall i, 0 <= i < rows * cols ->
     arg_exists ip1 t m i /\ result_exists op rb m i) ->
  computes_2d (if_then_0d_2d truth ip0 ip1 op c t rb cols) op rb rows cols
    (fun i => if_then_outcome truth (arg_at ip0 c m 0) (arg_at ip1 t m i)) m.
Proof. intros. apply local2_computes; auto. apply local_if_then_0d_2d; auto. Qed.

Theorem C32_if_then_2d_0d rows cols :
  0 <= rows -> 0 <= cols -> marks_result op rb ->
  scalar_apart ip1 t op rb m ->
  (forall i, 0 <= i < rows * cols ->
     arg_exists ip0 c m i /\ result_exists op rb m i) ->
  computes_2d (if_then_2d_0d truth ip0 ip1 op c t rb cols) op rb rows cols
    (fun i => if_then_outcome truth (arg_at ip0 c m i) (arg_at ip1 t m 0)) m.
Proof. intros. apply local2_computes; auto. apply local_if_then_2d_0d; auto. Qed.

Theorem C32_if_then_2d_2d rows cols :
  0 <= rows -> 0 <= cols -> marks_result op rb ->
  (forall i, 0 <= i < rows * cols ->
     arg_exists ip0 c m i /\ arg_exists ip1 t m i /\ result_exists op rb m i) ->
  computes_2d (if_then_2d_2d truth ip0 ip1 op c t rb cols) op rb rows cols
    (fun i => if_then_outcome truth (arg_at ip0 c m i) (arg_at ip1 t m i)) m.
Proof. intros. apply local2_computes; auto. apply local_if_then_2d_2d; auto. Qed.

Theorem C32_if_then_else_1d_0d_0d size :
  0 <= size -> marks_result op rb ->
  scalar_apart ip1 t op rb m -> scalar_apart ip2 f op rb m ->
  (forall i, 0 <= i < size ->
     arg_exists ip0 c m i /\ result_exists op rb m i) ->
  computes_1d (if_then_else_1d_0d_0d truth ip0 ip1 ip2 op c t f rb) op rb size
    (fun i => if_then_else_outcome truth (arg_at ip0 c m i) (arg_at ip1 t m 0) (arg_at ip2 f m 0)) m.
Proof. intros. apply local1_computes; auto. apply local_if_then_else_1d_0d_0d; auto. Qed.

Theorem C32_if_then_else_1d_1d_0d size :
  0 <= size -> marks_result op rb ->
  scalar_apart ip2 f op rb m ->
  (forall i, 0 <= i < size ->
     arg_exists ip0 c m i /\ arg_exists ip1 t m i /\ result_exists op rb m i) ->
  computes_1d (if_then_else_1d_1d_0d truth ip0 ip1 ip2 op c t f rb) op rb size
    (fun i => if_then_else_outcome truth (arg_at ip0 c m i) (arg_at ip1 t m i) (arg_at ip2 f m 0)) m.
Proof. intros. apply local1_computes; auto. apply local_if_then_else_1d_1d_0d; auto. Qed.

Theorem C32_if_then_else_1d_0d_1d size :
  0 <= size -> marks_result op rb ->
  scalar_apart ip1 t op rb m ->
  (forall i, 0 <= i < size ->
     arg_exists ip0 c m i /\ arg_exists ip2 f m i /\ result_exists op rb m i) ->
  computes_1d (if_then_else_1d_0d_1d truth ip0 ip1 ip2 op c t f rb) op rb size
    (fun i => if_then_else_outcome truth (arg_at ip0 c m i) (arg_at ip1 t m 0) (arg_at ip2 f m i)) m.
Proof. intros. apply local1_computes; auto. apply local_if_then_else_1d_0d_1d; auto. Qed.

Theorem C32_if_then_else_1d_1d_1d size :
  0 <= size -> marks_result op rb ->
  (forall i, 0 <= i < size ->
     arg_exists ip0 c m i /\ arg_exists ip1 t m i /\ arg_exists ip2 f m i /\ result_exists op rb m i) ->
  computes_1d (if_then_else_1d_1d_1d truth ip0 ip1 ip2 op c t f rb) op rb size
    (fun i => if_then_else_outcome truth (arg_at ip0 c m i) (arg_at ip1 t m i) (arg_at ip2 f m i)) m.
Proof. intros. apply local1_computes; auto. apply local_if_then_else_1d_1d_1d; auto. Qed.

Theorem C32_if_then_else_0d_2d_2d rows cols :
  0 <= rows -> 0 <= cols -> marks_result op rb ->
  scalar_apart ip0 c op rb m ->
  (forall i, 0 <= i < rows * cols ->
     arg_exists ip1 t m i /\ arg_exists ip2 f m i /\ result_exists op rb m i) ->
  computes_2d (if_then_else_0d_2d_2d truth ip0 ip1 ip2 op c t f rb cols) op rb rows cols
    (fun i => if_then_else_outcome truth (arg_at ip0 c m 0) (arg_at ip1 t m i) (arg_at ip2 f m i)) m.
Proof. intros. apply local2_computes; auto. apply local_if_then_else_0d_2d_2d; auto. Qed.

Theorem C32_if_then_else_0d_0d_2d rows cols :
  0 <= rows -> 0 <= cols -> marks_result op rb ->
  scalar_apart ip0 c op rb m -> scalar_apart ip1 t op rb m ->
  (forall i, 0 <= i < rows * cols ->
     arg_exists ip2 f m i /\ result_exists op rb m i) ->
  computes_2d (if_then_else_0d_0d_2d truth ip0 ip1 ip2 op c t f rb cols) op rb rows cols
    (fun i => if_then_else_outcome truth (arg_at ip0 c m 0) (arg_at ip1 t m 0) (arg_at ip2 f m i)) m.
Proof. intros. apply local2_computes; auto. apply local_if_then_else_0d_0d_2d; auto. Qed.

Theorem C32_if_then_else_0d_2d_0d rows cols :
  0 <= rows -> 0 <= cols -> marks_result op rb ->
  scalar_apart ip0 c op rb m -> scalar_apart ip2 f op rb m ->
  (forall i, 0 <= i < rows * cols ->
     arg_exists ip1 t m i /\ result_exists op rb m i) ->
  computes_2d (if_then_else_0d_2d_0d truth ip0 ip1 ip2 op c t f rb cols) op rb rows cols
    (fun i => if_then_else_outcome truth (arg_at ip0 c m 0) (arg_at ip1 t m i) (arg_at ip2 f m 0)) m.
Proof. intros. apply local2_computes; auto. apply local_if_then_else_0d_2d_0d; auto. Qed.

Theorem C32_if_then_else_2d_2d_2d rows cols :
  0 <= rows -> 0 <= cols -> marks_result op rb ->
  (forall i, 0 <= i < rows * cols ->
     arg_exists ip0 c m i /\ arg_exists ip1 t m i /\ arg_exists ip2 f m i /\ result_exists op rb m i) ->
  computes_2d (if_then_else_2d_2d_2d truth ip0 ip1 ip2 op c t f rb cols) op rb rows cols
    (fun i => if_then_else_outcome truth (arg_at ip0 c m i) (arg_at ip1 t m i) (arg_at ip2 f m i)) m.
Proof. intros. apply local2_computes; auto. apply local_if_then_else_2d_2d_2d; auto. Qed.

Theorem C32_if_then_else_2d_2d_0d rows cols :
  0 <= rows -> 0 <= cols -> marks_result op rb ->
  scalar_apart ip2 f op rb m ->
  (forall i, 0 <= i < rows * cols ->
     arg_exists ip0 c m i /\ arg_exists ip1 t m i /\ result_exists op rb m i) ->
  computes_2d (if_then_else_2d_2d_0d truth ip0 ip1 ip2 op c t f rb cols) op rb rows cols
    (fun i => if_then_else_outcome truth (arg_at ip0 c m i) (arg_at ip1 t m i) (arg_at ip2 f m 0)) m.
Proof. intros. apply local2_computes; auto. apply local_if_then_else_2d_2d_0d; auto. Qed.

Theorem C32_if_then_else_2d_0d_2d rows cols :
  0 <= rows -> 0 <= cols -> marks_result op rb ->
  scalar_apart ip1 t op rb m ->
  (forall i, 0 <= i < rows * cols ->
     arg_exists ip0 c m i /\ arg_exists ip2 f m i /\ result_exists op rb m i) ->
  computes_2d (if_then_else_2d_0d_2d truth ip0 ip1 ip2 op c t f rb cols) op rb rows cols
    (fun i => if_then_else_outcome truth (arg_at ip0 c m i) (arg_at ip1 t m 0) (arg_at ip2 f m i)) m.
Proof. intros. apply local2_computes; auto. apply local_if_then_else_2d_0d_2d; auto. Qed.

Theorem C32_if_then_else_2d_0d_0d rows cols :
  0 <= rows -> 0 <= cols -> marks_result op rb ->
  scalar_apart ip1 t op rb m -> scalar_apart ip2 f op rb m ->
  (forall i, 0 <= i < rows * cols ->
     arg_exists ip0 c m i /\ result_exists op rb m i) ->
  computes_2d (if_then_else_2d_0d_0d truth ip0 ip1 ip2 op c t f rb cols) op rb rows cols
    (fun i => if_then_else_outcome truth (arg_at ip0 c m i) (arg_at ip1 t m 0) (arg_at ip2 f m 0)) m.
Proof. intros. apply local2_computes; auto. apply local_if_then_else_2d_0d_0d; auto. Qed.
End C32.
Print Assumptions C32_if_then_0d_0d.
Print Assumptions C32_if_then_else_0d_0d_0d.
Print Assumptions C32_if_then_0d_2d.
Print Assumptions C32_if_then_2d_0d.
Print Assumptions C32_if_then_2d_2d.
Print Assumptions C32_if_then_else_1d_0d_0d.
Print Assumptions C32_if_then_else_1d_1d_0d.
Print Assumptions C32_if_then_else_1d_0d_1d.
Print Assumptions C32_if_then_else_1d_1d_1d.
Print Assumptions C32_if_then_else_0d_2d_2d.
Print Assumptions C32_if_then_else_0d_0d_2d.
Print Assumptions C32_if_then_else_0d_2d_0d.
Print Assumptions C32_if_then_else_2d_2d_2d.
Print Assumptions C32_if_then_else_2d_2d_0d.
Print Assumptions C32_if_then_else_2d_0d_2d.
Print Assumptions C32_if_then_else_2d_0d_0d.

(** Four cells: true with a valid and with a no-data true value, false, and no-data.  The false
    value is a scalar. *)
Definition if_mem : mem Z :=
  mem_of [[1; 1; 0; 1]; [10; 20; 30; 40]; [7]; [0; 0; 0; 0]]
         [[false; false; false; true]; [false; true; true; false]; [false];
          [false; false; false; false]].

Example C32_case :
  marks_result (V := Z) (MarkByMask 3 true) 3 /\
  scalar_apart (DetectByMask 2 true) 2 (MarkByMask 3 true) 3 if_mem /\
  (forall i, 0 <= i < 2 * 2 ->
     arg_exists (DetectByMask 0 true) 0 if_mem i /\
     arg_exists (DetectByMask 1 true) 1 if_mem i /\
     result_exists (MarkByMask 3 true) 3 if_mem i) /\
  let r := run (if_then_else_2d_2d_0d (fun x => negb (x =? 0)) (DetectByMask 0 true)
                  (DetectByMask 1 true) (DetectByMask 2 true) (MarkByMask 3 true)
                  0 1 2 3 2 (whole2 2 2)) if_mem in
  values_of r 3 4 = [Some 10; Some 0; Some 7; Some 0] /\
  mask_of r 3 4 = [Some false; Some true; Some false; Some true].
Proof.
  split; [exact I|].
  split. { repeat split; try discriminate. }
  split; [|split; reflexivity].
  intros i Hi. four_cells i; repeat split; discriminate.
Qed.

(** ** C33: clamp *)

(** At element [i] the argument exists, and if it is valid, so are the bounds, at [il] and
    [ih], and they are ordered; or else an assertion fails. *)
Section C33.
Context {V : Type}.
Variable lt : V -> V -> bool.
Variables (ip0 ip1 ip2 : inpol V) (op : outpol V) (a lo hi rb : buf) (m : mem V).

Definition clampable (i il ih : Z) : Prop :=
  arg_exists ip0 a m i /\ result_exists op rb m i /\
  (nd_at ip0 m i = false ->
   readable ip1 m il /\ readable ip2 m ih /\
   exists l h, arg_at ip1 lo m il = Some l /\ arg_at ip2 hi m ih = Some h /\ lt h l = false).

(** The outcome at element [i]: no-data, or the value moved into the bounds. *)
Definition clamp_result (o : outcome V) (i il ih : Z) : Prop :=
  match arg_at ip0 a m i with
  | None => o = NoData
  | Some v => exists l h r, mval m lo il = Some l /\ mval m hi ih = Some h /\
      o = Value r /\ clamped lt v l h r
  end.

Hypothesis lt_irrefl : forall x, lt x x = false.

Lemma clamp_outcome_result i il ih : clampable i il ih ->
  clamp_result (clamp_outcome lt (arg_at ip0 a m i) (arg_at ip1 lo m il) (arg_at ip2 hi m ih))
    i il ih.
Proof using lt_irrefl.
  intros (_ & _ & Hb). unfold clamp_result.
  destruct (arg_at ip0 a m i) as [v|] eqn:E0; [|reflexivity].
  unfold arg_at in E0. destruct (nd_at ip0 m i); [discriminate|].
  destruct (Hb eq_refl) as (_ & _ & l & h & El & Eh & Ho). rewrite El, Eh.
  exists l, h, (clamp_fun lt v l h). unfold arg_at in El, Eh.
  destruct (nd_at ip1 m il); [discriminate|]. destruct (nd_at ip2 m ih); [discriminate|].
  split; [auto|]. split; [auto|]. split; [reflexivity|]. apply clamp_fun_clamped; auto.
Qed.

Lemma clampable_bounds i il ih : clampable i il ih ->
  bounds_ok lt ip0 ip1 ip2 a lo hi m i il ih /\ result_exists op rb m i.
Proof. intros (H1 & H2 & H3). split; [split; auto|auto]. Qed.

Theorem C33_clamp_1d_1d_1d size :
  0 <= size -> marks_result op rb ->
  (forall i, 0 <= i < size -> clampable i i i) ->
  exists o, computes_1d (clamp_1d_1d_1d lt ip0 ip1 ip2 op a lo hi rb) op rb size o m /\
    forall i, 0 <= i < size -> clamp_result (o i) i i i.
Proof using lt_irrefl.
  intros Hs Hm Hex.
  assert (Hl := local_clamp_1d lt ip0 ip1 ip2 op a lo hi rb size m (fun i => i) (fun i => i)).
  cbv beta in Hl.
  eexists; split; [|intros i Hi; apply clamp_outcome_result; auto].
  assert (Hl1 := Hl Hm (fun _ => ltac:(auto)) (fun _ => ltac:(auto)) (fun i Hi => clampable_bounds _ _ _ (Hex i Hi))).
  apply local1_computes; auto.
Qed.

Theorem C33_clamp_1d_1d_0d size :
  0 <= size -> marks_result op rb ->
  hi <> rb -> policy_apart ip2 op rb ->
  (forall i, 0 <= i < size -> clampable i i 0) ->
  exists o, computes (clamp_1d_1d_0d lt ip0 ip1 ip2 op a lo hi rb (whole1 size)) op rb size o m /\
    forall i, 0 <= i < size -> clamp_result (o i) i i 0.
Proof using lt_irrefl.
  intros Hs Hm H1 H2 Hex.
  assert (Hl := local_clamp_1d lt ip0 ip1 ip2 op a lo hi rb size m (fun i => i) (fun _ => 0)).
  cbv beta in Hl.
  eexists; split; [|intros i Hi; apply clamp_outcome_result; auto].
  assert (Hl1 := Hl Hm (fun _ => ltac:(auto)) (fun _ => ltac:(auto)) (fun i Hi => clampable_bounds _ _ _ (Hex i Hi))).
  destruct (local1_sequential _ _ _ _ _ _ Hs Hl1) as (m1 & R & H & C); exists m1; auto.
Qed.

Theorem C33_clamp_1d_0d_1d size :
  0 <= size -> marks_result op rb ->
  lo <> rb -> policy_apart ip1 op rb ->
  (forall i, 0 <= i < size -> clampable i 0 i) ->
  exists o, computes (clamp_1d_0d_1d lt ip0 ip1 ip2 op a lo hi rb (whole1 size)) op rb size o m /\
    forall i, 0 <= i < size -> clamp_result (o i) i 0 i.
Proof using lt_irrefl.
  intros Hs Hm H1 H2 Hex.
  assert (Hl := local_clamp_1d lt ip0 ip1 ip2 op a lo hi rb size m (fun _ => 0) (fun i => i)).
  cbv beta in Hl.
  eexists; split; [|intros i Hi; apply clamp_outcome_result; auto].
  assert (Hl1 := Hl Hm (fun _ => ltac:(auto)) (fun _ => ltac:(auto)) (fun i Hi => clampable_bounds _ _ _ (Hex i Hi))).
  destruct (local1_sequential _ _ _ _ _ _ Hs Hl1) as (m1 & R & H & C); exists m1; auto.
Qed.

Theorem C33_clamp_2d_2d_2d rows cols :
  0 <= rows -> 0 <= cols -> marks_result op rb ->
  (forall i, 0 <= i < rows * cols -> clampable i i i) ->
  exists o, computes_2d (clamp_2d_2d_2d lt ip0 ip1 ip2 op a lo hi rb cols) op rb rows cols o m /\
    forall i, 0 <= i < rows * cols -> clamp_result (o i) i i i.
Proof using lt_irrefl.
  intros Hr Hc Hm Hex.
  assert (Hl := local_clamp_2d lt ip0 ip1 ip2 op a lo hi rb rows cols m (fun i => i) (fun i => i)).
  cbv beta in Hl.
  eexists; split; [|intros i Hi; apply clamp_outcome_result; auto].
  assert (Hl1 := Hl Hc Hm (fun _ => ltac:(auto)) (fun _ => ltac:(auto)) (fun i Hi => clampable_bounds _ _ _ (Hex i Hi))).
  apply local2_computes; auto.
Qed.

Theorem C33_clamp_2d_2d_0d rows cols :
  0 <= rows -> 0 <= cols -> marks_result op rb ->
  hi <> rb -> policy_apart ip2 op rb ->
  (forall i, 0 <= i < rows * cols -> clampable i i 0) ->
  exists o, computes_2d (clamp_2d_2d_0d lt ip0 ip1 ip2 op a lo hi rb cols) op rb rows cols o m /\
    forall i, 0 <= i < rows * cols -> clamp_result (o i) i i 0.
Proof using lt_irrefl.
  intros Hr Hc Hm H1 H2 Hex.
  assert (Hl := local_clamp_2d lt ip0 ip1 ip2 op a lo hi rb rows cols m (fun i => i) (fun _ => 0)).
  cbv beta in Hl.
  eexists; split; [|intros i Hi; apply clamp_outcome_result; auto].
  assert (Hl1 := Hl Hc Hm (fun _ => ltac:(auto)) (fun _ => ltac:(auto)) (fun i Hi => clampable_bounds _ _ _ (Hex i Hi))).
  apply local2_computes; auto.
Qed.

Theorem C33_clamp_2d_0d_2d rows cols :
  0 <= rows -> 0 <= cols -> marks_result op rb ->
  lo <> rb -> policy_apart ip1 op rb ->
  (forall i, 0 <= i < rows * cols -> clampable i 0 i) ->
  exists o, computes_2d (clamp_2d_0d_2d lt ip0 ip1 ip2 op a lo hi rb cols) op rb rows cols o m /\
    forall i, 0 <= i < rows * cols -> clamp_result (o i) i 0 i.
Proof using lt_irrefl.
  intros Hr Hc Hm H1 H2 Hex.
  assert (Hl := local_clamp_2d lt ip0 ip1 ip2 op a lo hi rb rows cols m (fun _ => 0) (fun i => i)).
  cbv beta in Hl.
  eexists; split; [|intros i Hi; apply clamp_outcome_result; auto].
  assert (Hl1 := Hl Hc Hm (fun _ => ltac:(auto)) (fun _ => ltac:(auto)) (fun i Hi => clampable_bounds _ _ _ (Hex i Hi))).
  apply local2_computes; auto.
Qed.

Theorem C33_clamp_0d_0d_0d :
  marks_result op rb -> clampable 0 0 0 ->
  (nd_at ip0 m 0 = true ->
   readable ip1 m 0 /\ readable ip2 m 0 /\ nd_at ip1 m 0 = false /\ nd_at ip2 m 0 = false) ->
  exists o, computes (clamp_0d_0d_0d lt ip0 ip1 ip2 op a lo hi rb) op rb 1 (fun _ => o) m /\
    clamp_result o 0 0 0.
Proof using lt_irrefl.
  intros Hm Hc Hb. eexists; split; [|apply clamp_outcome_result; auto].
  assert (Hn : readable ip1 m 0 /\ readable ip2 m 0 /\
               nd_at ip1 m 0 = false /\ nd_at ip2 m 0 = false).
  { destruct (nd_at ip0 m 0) eqn:E; auto.
    destruct Hc as (_ & _ & Hc). destruct (Hc E) as (R1 & R2 & l & h & El & Eh & _).
    unfold arg_at in El, Eh.
    destruct (nd_at ip1 m 0); [discriminate|]. destruct (nd_at ip2 m 0); [discriminate|]. auto. }
  destruct Hn as (R1 & R2 & N1 & N2).
  assert (Hcell := own_clamp_cell lt ip0 ip1 ip2 op a lo hi rb 0 0 0 Hm
    (or_introl eq_refl) (or_introl eq_refl)).
  destruct (clampable_bounds _ _ _ Hc) as [Hbo Hre].
  destruct (run_clamp_cell lt ip0 ip1 ip2 op a lo hi rb m 0 0 0 Hm Hre Hbo) as (ms & R & H).
  apply element_computes.
  - unfold clamp_0d_0d_0d, assertp. own_tac.
    unfold clamp_value. repeat (apply own_bind; [apply own_rdv|intros ?]).
    apply own_if; [exact I|apply own_wrv].
  - exists ms; split; [|exact H]. rewrite <- R.
    unfold clamp_0d_0d_0d, clamp_cell, assertp.
    erewrite run_ifp by tests_tac. rewrite N1; cbn [negb].
    erewrite run_ifp by tests_tac. rewrite N2; cbn [negb].
    destruct Hc as ([R0 _] & _).
    erewrite run_ifp by tests_tac. symmetry. erewrite run_ifp by tests_tac.
    destruct (nd_at ip0 m 0); [reflexivity|].
    erewrite run_ifp by tests_tac. rewrite N1; cbn [negb].
    erewrite run_ifp by tests_tac. rewrite N2; cbn [negb]. reflexivity.
Qed.
End C33.

(** A bound that is no-data, or bounds in the wrong order, make an assertion fail. *)
Theorem C33_invalid_bounds {V} (lt : V -> V -> bool) ip0 ip1 ip2 op a lo hi rb (m : mem V) l h :
  readable ip0 m 0 -> nd_at ip0 m 0 = false -> readable ip1 m 0 -> readable ip2 m 0 ->
  mval m lo 0 = Some l -> mval m hi 0 = Some h ->
  nd_at ip1 m 0 = true \/ nd_at ip2 m 0 = true \/ lt h l = true ->
  run (clamp_0d_0d_0d lt ip0 ip1 ip2 op a lo hi rb) m = None.
Proof.
  intros R0 N0 R1 R2 El Eh Hbad. unfold clamp_0d_0d_0d, assertp.
  erewrite run_ifp by tests_tac.
  destruct (nd_at ip1 m 0) eqn:N1; cbn [negb]; [reflexivity|].
  erewrite run_ifp by tests_tac.
  destruct (nd_at ip2 m 0) eqn:N2; cbn [negb]; [reflexivity|].
  erewrite run_ifp by tests_tac. rewrite N0.
  destruct Hbad as [?|[?|Hbad]]; try discriminate.
  unfold clamp_value. cbn. destruct (mval m a 0); auto.
  rewrite El, Eh, Hbad. reflexivity.
Qed.
Print Assumptions C33_clamp_1d_1d_1d.
Print Assumptions C33_clamp_1d_1d_0d.
Print Assumptions C33_clamp_1d_0d_1d.
Print Assumptions C33_clamp_2d_2d_2d.
Print Assumptions C33_clamp_2d_2d_0d.
Print Assumptions C33_clamp_2d_0d_2d.
Print Assumptions C33_clamp_0d_0d_0d.
Print Assumptions C33_invalid_bounds.

(** Below, inside, above, and no-data; the upper bound is a scalar. *)
Definition clamp_mem : mem Z :=
  mem_of [[-5; 5; 50; 60]; [0; 1; 2; 3]; [10]; [0; 0; 0; 0]]
         [[false; false; false; true]; [false; false; false; true]; [false];
          [false; false; false; false]].

Example C33_case :
  (forall x, Z.ltb x x = false) /\ marks_result (V := Z) (MarkByMask 3 true) 3 /\
  (forall i, 0 <= i < 2 * 2 ->
     clampable Z.ltb (DetectByMask 0 true) (DetectByMask 1 true) SkipNoData
       (MarkByMask 3 true) 0 1 2 3 clamp_mem i i 0) /\
  let r := run (clamp_2d_2d_0d Z.ltb (DetectByMask 0 true) (DetectByMask 1 true) SkipNoData
                  (MarkByMask 3 true) 0 1 2 3 2 (whole2 2 2)) clamp_mem in
  values_of r 3 4 = [Some 0; Some 5; Some 10; Some 0] /\
  mask_of r 3 4 = [Some false; Some false; Some false; Some true].
Proof.
  split; [exact Z.ltb_irrefl|]. split; [exact I|]. split; [|split; reflexivity].
  intros i Hi. four_cells i; (split; [split; discriminate|split; [split; discriminate|]]);
    cbn; try discriminate; intros _; (split; [discriminate|split; [exact I|]]).
  - exists 0, 10; auto.
  - exists 1, 10; auto.
  - exists 2, 10; auto.
Qed.

(** ** C34: merging of no-data *)
Section C34.
Context {V : Type}.
Variables (ip1 ip2 : inpol V) (op : outpol V) (rb : buf) (m : mem V).

Theorem C34_merge_2d rows cols :
  0 <= rows -> 0 <= cols -> marks_result op rb ->
  (forall i, 0 <= i < rows * cols -> readable ip1 m i /\ result_exists op rb m i) ->
  computes_2d (merge_no_data_2d ip1 op cols) op rb rows cols
    (fun i => marked_if (nd_at ip1 m i) (mval m rb i)) m.
Proof.
  intros Hr Hc Hm Hex. apply local2_computes; auto. apply local_mark_if; auto.
  - intros i. own_tac.
  - intros i Hi. destruct (Hex i Hi). split; [auto|]. tests_tac.
Qed.

Theorem C34_unite_2d rows cols :
  0 <= rows -> 0 <= cols -> marks_result op rb ->
  (forall i, 0 <= i < rows * cols ->
     readable ip1 m i /\ readable ip2 m i /\ result_exists op rb m i) ->
  computes_2d (unite_no_data_2d_2d ip1 ip2 op cols) op rb rows cols
    (fun i => marked_if (nd_at ip1 m i || nd_at ip2 m i) (mval m rb i)) m.
Proof.
  intros Hr Hc Hm Hex. apply local2_computes; auto. apply local_mark_if; auto.
  - intros i. own_tac.
  - intros i Hi. destruct (Hex i Hi) as (H1 & H2 & H3). split; [auto|]. tests_tac.
Qed.

Theorem C34_intersect_2d rows cols :
  0 <= rows -> 0 <= cols -> marks_result op rb ->
  (forall i, 0 <= i < rows * cols ->
     readable ip1 m i /\ readable ip2 m i /\ result_exists op rb m i) ->
  computes_2d (intersect_no_data_2d_2d ip1 ip2 op cols) op rb rows cols
    (fun i => marked_if (nd_at ip1 m i && nd_at ip2 m i) (mval m rb i)) m.
Proof.
  intros Hr Hc Hm Hex. apply local2_computes; auto. apply local_mark_if; auto.
  - intros i. own_tac.
  - intros i Hi. destruct (Hex i Hi) as (H1 & H2 & H3). split; [auto|]. tests_tac.
Qed.

Theorem C34_0d :
  marks_result op rb -> readable ip1 m 0 -> readable ip2 m 0 -> result_exists op rb m 0 ->
  computes (merge_no_data_0d ip1 op) op rb 1
    (fun _ => marked_if (nd_at ip1 m 0) (mval m rb 0)) m /\
  computes (unite_no_data_0d_0d ip1 ip2 op) op rb 1
    (fun _ => marked_if (nd_at ip1 m 0 || nd_at ip2 m 0) (mval m rb 0)) m /\
  computes (intersect_no_data_0d_0d ip1 ip2 op) op rb 1
    (fun _ => marked_if (nd_at ip1 m 0 && nd_at ip2 m 0) (mval m rb 0)) m.
Proof.
  intros Hm H1 H2 Hr.
  split; [|split]; (apply element_computes; [apply own_mark_if; auto; own_tac|]);
    apply run_mark_if; auto; tests_tac.
Qed.

(** With a mask, values are never touched and marks are only added. *)
Theorem C34_mask_only b nd m1 i (x : bool) :
  op = MarkByMask b nd ->
  holds op rb m m1 i (marked_if x (mval m rb i)) ->
  result_exists op rb m i ->
  mval m1 rb i = mval m rb i /\
  mmsk m1 b i = if x then Some nd else mmsk m b i.
Proof.
  intros -> [Hv Hk] [Hr Hx]. unfold marked_if in *. split.
  - rewrite Hv. destruct (mval m rb i) as [v|]; [|congruence]. destruct x; reflexivity.
  - rewrite (Hk b eq_refl). destruct (mval m rb i) as [v|]; [|congruence].
    destruct (mmsk m b i); [|congruence]. destruct x; reflexivity.
Qed.
End C34.
Print Assumptions C34_merge_2d.
Print Assumptions C34_unite_2d.
Print Assumptions C34_intersect_2d.
Print Assumptions C34_0d.
Print Assumptions C34_mask_only.

(** The four combinations, and a mark that was there already. *)
Definition merge_mem : mem Z :=
  mem_of [[1; 2; 3; 4]; [5; 6; 7; 8]; [9; 9; 9; 9]]
         [[false; true; false; true]; [false; false; true; true]; [true; false; false; false]].

Example C34_case :
  marks_result (V := Z) (MarkByMask 2 true) 2 /\
  (forall i, 0 <= i < 2 * 2 ->
     readable (DetectByMask 0 true) merge_mem i /\ readable (DetectByMask 1 true) merge_mem i /\
     result_exists (MarkByMask 2 true) 2 merge_mem i) /\
  mask_of (run (unite_no_data_2d_2d (DetectByMask 0 true) (DetectByMask 1 true)
                  (MarkByMask 2 true) 2 (whole2 2 2)) merge_mem) 2 4
    = [Some true; Some true; Some true; Some true] /\
  mask_of (run (intersect_no_data_2d_2d (DetectByMask 0 true) (DetectByMask 1 true)
                  (MarkByMask 2 true) 2 (whole2 2 2)) merge_mem) 2 4
    = [Some true; Some false; Some false; Some true].
Proof.
  split; [exact I|]. split; [|split; reflexivity].
  intros i Hi. four_cells i; repeat split; discriminate.
Qed.
