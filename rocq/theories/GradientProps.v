(** * Property C44: gradients *)
From Coq Require Import ZArith List Bool Lia.
From Verif Require Import LangModel LangProofs ConcModel IndexModel IndexSpec IndexProofs
  LoopModel LoopSpec PolicyModel LocalSpec CoreModel CoreSpec CopySpec ConvolveSpec
  ConvolveProofs GradientModel GradientSpec GradientProofs ExampleMem.
Import ListNotations.
Open Scope Z_scope.

Section Gradient.
Context {V D : Type}.
Variable ds : differences V D.
Variable cell_size : Z -> D.
Variables (ip : inpol V) (op : outpol V) (src dst : buf) (rows cols : Z) (m : mem V).

Notation x_sequential := (gradient_x_sequential ds cell_size ip op src dst rows cols).
Notation x_parallel := (gradient_x_parallel ds cell_size ip op src dst rows cols).
Notation y_sequential := (gradient_y_sequential ds cell_size ip op src dst rows cols).
Notation y_parallel := (gradient_y_parallel ds cell_size ip op src dst rows cols).

(** From memory [m], [p] ends without undefined behaviour with the expected values and marks
    in each cell, and nothing else changed; for every number of threads, the tasks yield the
    same memory, whatever the schedule, without races. *)
Definition computes_cells (p : prog V unit) (par : Z -> option (list (prog V unit)))
    (expected : Z * Z -> option V) : Prop :=
  exists m1, run p m = Some (tt, m1) /\
    (forall c, in_image rows cols c = true ->
       holds op dst m m1 (linear cols c) (value_or_no_data (expected c))) /\
    changes_only op dst (zrange 0 (rows * cols)) m m1 /\
    forall n, 1 <= n -> exists tasks, par n = Some tasks /\ always_yields tasks m m1.

Theorem C44_gradient_x :
  stored_apart ip src rows cols m op dst -> at_least rows cols 0 2 ->
  computes_cells x_sequential x_parallel (expected_x ds ip src rows cols m (cell_size 0)).
Proof.
  intros Hst [Hr Hc].
  destruct (gradient_x_computes ds cell_size ip op src dst rows cols m Hst Hr Hc) as (m1 & H1 & H2 & H3 & H4).
  exists m1. split; [auto|]. split; [|auto]. intros [i j] Hin. apply in_image_spec in Hin. cbn [fst snd] in Hin.
  unfold linear. cbn [fst snd]. specialize (H2 (i * cols + j)).
  unfold res_x in H2. destruct (divmod_cell cols i j) as [E1 E2]; [lia|]. rewrite E1, E2 in H2.
  apply H2. apply in_zrange. nia.
Qed.

Theorem C44_gradient_y :
  stored_apart ip src rows cols m op dst -> at_least rows cols 2 0 ->
  computes_cells y_sequential y_parallel (expected_y ds ip src rows cols m (cell_size 1)).
Proof.
  intros Hst [Hr Hc].
  destruct (gradient_y_computes ds cell_size ip op src dst rows cols m Hst Hr (proj1 Hc)) as (m1 & H1 & H2 & H3 & H4).
  exists m1. split; [auto|]. split; [|auto]. intros [i j] Hin. apply in_image_spec in Hin. cbn [fst snd] in Hin.
  unfold linear. cbn [fst snd]. specialize (H2 (i * cols + j)).
  unfold res_y in H2. destruct (divmod_cell cols i j) as [E1 E2]; [lia|]. rewrite E1, E2 in H2.
  apply H2. apply in_zrange. nia.
Qed.

(** A raster with a single column has no gradient in x: the assertions fail.  The same holds
    for a single row and y, if its first cell is valid. *)
Lemma run_seq_none {A B} (p : prog V A) (q : prog V B) :
  (forall m', run q m' = None) -> run (seq p q) m = None.
Proof. intros H. unfold seq. rewrite run_bind. destruct (run p m) as [[a m']|]; auto. Qed.

Theorem C44_single_column : cols = 1 -> 0 < rows -> run x_sequential m = None.
Proof.
  intros -> Hr. unfold gradient_x_sequential, gradient_x_2d, whole2, whole1. cbn [rbegin rend].
  apply run_seq_none. intros m'. unfold for_range at 1, fold_range at 1.
  destruct (Z.to_nat (rows - 0)) eqn:E; [lia|]. cbn. reflexivity.
Qed.

Theorem C44_single_row : rows = 1 -> 0 < cols ->
  stored_apart ip src rows cols m op dst -> nd_at ip m 0 = false -> run y_sequential m = None.
Proof.
  intros -> Hc Hst Hv. unfold gradient_y_sequential, gradient_y_2d, whole2, whole1. cbn [rbegin rend].
  unfold seq at 1. rewrite run_bind. unfold for_range at 1. unfold fold_range at 1.
  change (Z.to_nat (1 - 0)) with 1%nat. cbn [fold_n]. rewrite run_bind.
  unfold seq at 1. rewrite run_bind. unfold fold_range at 1.
  destruct (Z.to_nat (cols - 0)) eqn:E; [lia|]. cbn [fold_n]. rewrite run_bind.
  unfold seq at 1. rewrite run_bind. unfold first_cell at 1, ifp at 1. rewrite run_bind.
  replace (0 * cols + 0) with 0 by lia.
  assert (Hn : run (is_no_data ip 0) m = Some (false, m)).
  { rewrite <- Hv. destruct Hst as (Hex & _). destruct (Hex 0) as [[Hrd _] _]; [lia|].
    clear -Hrd. destruct ip as [| |b nd|b f]; cbn in *; auto.
    - destruct (mmsk m b 0); [auto|congruence].
    - destruct (mval m b 0); [auto|congruence]. }
  rewrite Hn. reflexivity.
Qed.
End Gradient.
Print Assumptions C44_gradient_x.
Print Assumptions C44_gradient_y.
Print Assumptions C44_single_column.
Print Assumptions C44_single_row.

(** ** A concrete case: integers, no-data by mask, cells of 2 by 1 *)
Definition int_differences : differences Z Z :=
  {| gradient := fun v1 v2 d => (v2 - v1) / d; zero := 0; add_distance := Z.add |}.
Definition sizes_2_1 (i : Z) : Z := if i =? 0 then 2 else 1.
Definition hill : mem Z :=
  mem_of [[0; 10; 30; 60;  1; 2; 4; 8;  100; 50; 20; 10]; repeat (-1) 12]
    [[false; false; false; false;  false; true; false; true;  true; false; true; false]; repeat false 12].
Definition of_mask : inpol Z := DetectByMask 0%nat true.
Definition in_mask : outpol Z := MarkByMask 1%nat true.

Example C44_case_hypotheses : stored_apart of_mask 0%nat 3 4 hill in_mask 1%nat /\ at_least 3 4 2 2.
Proof.
  split; [|unfold at_least; lia]. split; [|split; [discriminate|split; cbn; [discriminate|auto]]].
  intros i Hi. assert (Hc : In i (zrange 0 12)) by (apply in_zrange; lia). cbn in Hc.
  repeat (destruct Hc as [<-|Hc]; [vm_compute; repeat split; discriminate|]). destruct Hc.
Qed.

Example C44_case_x :
  let r := run (gradient_x_sequential int_differences sizes_2_1 of_mask in_mask 0%nat 1%nat 3 4) hill in
  values_of r 1%nat 12 = map Some [5; 7; 12; 15;  0; -1; 0; -1;  -1; 0; -1; 0] /\
  mask_of r 1%nat 12 =
    map Some [false; false; false; false;  false; true; false; true;  true; false; true; false].
Proof. vm_compute. auto. Qed.

Example C44_case_y :
  let r := run (gradient_y_sequential int_differences sizes_2_1 of_mask in_mask 0%nat 1%nat 3 4) hill in
  values_of r 1%nat 12 = map Some [1; 0; -26; 0;  1; -1; -26; -1;  -1; 0; -1; 0].
Proof. vm_compute. auto. Qed.

Example C44_case_parallel :
  match gradient_y_parallel int_differences sizes_2_1 of_mask in_mask 0%nat 1%nat 3 4 3 with
  | Some tasks => length tasks = 3%nat /\
      values_of (run (seq_all (rev tasks)) hill) 1%nat 12 =
      values_of (run (gradient_y_sequential int_differences sizes_2_1 of_mask in_mask 0%nat 1%nat 3 4) hill) 1%nat 12
  | None => False
  end.
Proof. vm_compute. auto. Qed.
