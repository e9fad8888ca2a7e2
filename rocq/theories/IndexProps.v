(** * Properties C01-C04: index ranges and blocks *)
From Coq Require Import ZArith List Bool Lia FinFun.
From Verif Require Import IndexModel IndexSpec IndexProofs.
Import ListNotations.
Open Scope Z_scope.

(** C01.  For every thread count and size the blocks exist (no assertion fails), none is
    empty, and their indices, block after block, are exactly 0 .. size-1. *)
Theorem C01_blocks_1d_partition : forall nr_threads size,
  1 <= nr_threads -> 0 <= size < 2 ^ 64 ->
  exists blocks, index_ranges_1d nr_threads size = Some blocks /\
    flat_map indices blocks = zrange 0 size /\
    (forall r, In r blocks -> indices r <> []) /\
    (size = 0 -> blocks = []).
Proof.
  intros n size Hn Hs.
  destruct (index_ranges_1d_spec n size Hn Hs) as (rs & H1 & H2 & H3 & H4).
  exists rs; split; [exact H1|]. split; [|split].
  - rewrite flat_map_concat_map; exact H3.
  - intros r Hr E. rewrite Forall_forall in H4. destruct (H4 r Hr) as [[A B] _].
    unfold indices in E. rewrite zrange_cons in E by lia. discriminate.
  - intros ->. rewrite nr_blocks_zero in H2 by lia. destruct rs; [auto|simpl in H2; lia].
Qed.
Print Assumptions C01_blocks_1d_partition.

Example C01_case : option_map (flat_map indices) (index_ranges_1d 3 8) =
  Some [0; 1; 2; 3; 4; 5; 6; 7].
Proof. vm_compute; reflexivity. Qed.

(** C02.  The cells of the blocks of a raster, block after block, are exactly the cells of
    the raster in row-major order. *)
Theorem C02_blocks_2d_partition : forall nr_threads rows cols,
  1 <= nr_threads -> 0 <= rows < 2 ^ 64 -> 0 <= cols < 2 ^ 64 ->
  exists blocks, index_ranges_2d nr_threads rows cols = Some blocks /\
    flat_map cells2 blocks = raster_cells rows cols.
Proof.
  intros n r c Hn Hr Hc.
  destruct (index_ranges_2d_spec n r c Hn Hr) as (bs & H1 & H2 & H3 & H4); [lia|].
  exists bs; split; [exact H1|]. rewrite flat_map_concat_map; exact H3.
Qed.
Print Assumptions C02_blocks_2d_partition.

Example C02_case : option_map (flat_map cells2) (index_ranges_2d 2 3 2) =
  Some [(0,0); (0,1); (1,0); (1,1); (2,0); (2,1)].
Proof. vm_compute; reflexivity. Qed.

(** The row-major cell list contains every cell once. *)
Theorem C02_raster_cells_once : forall rows cols,
  NoDup (raster_cells rows cols) /\
  forall i j, In (i, j) (raster_cells rows cols) <-> 0 <= i < rows /\ 0 <= j < cols.
Proof.
  intros rows cols; split.
  - unfold raster_cells.
    pose proof (NoDup_zrange 0 rows) as Hnd. induction (zrange 0 rows) as [|i l IH]; simpl.
    + constructor.
    + inversion Hnd; subst.
      assert (Happ : forall (X : Type) (l1 l2 : list X), NoDup l1 -> NoDup l2 ->
          (forall x, In x l1 -> ~ In x l2) -> NoDup (l1 ++ l2)).
      { clear. induction l1 as [|x l1 IH]; simpl; intros l2 N1 N2 D; auto.
        inversion N1; subst. constructor.
        - rewrite in_app_iff; intros [H|H]; [auto|eapply D; eauto].
        - apply IH; auto. }
      apply Happ.
      * apply FinFun.Injective_map_NoDup; [intros a b E; congruence|apply NoDup_zrange].
      * auto.
      * intros [a b] Hin Hin2. apply in_map_iff in Hin as (j & E & _). inversion E; subst.
        apply in_flat_map in Hin2 as (i' & Hi' & Hin2).
        apply in_map_iff in Hin2 as (j' & E' & _). inversion E'; subst; auto.
  - intros i j; unfold raster_cells. rewrite in_flat_map. split.
    + intros (i' & Hi & Hin). apply in_map_iff in Hin as (j' & E & Hj). inversion E; subst.
      rewrite in_zrange in *; auto.
    + intros [Hi Hj]. exists i; split; [apply in_zrange; auto|].
      apply in_map_iff. exists j; split; auto. apply in_zrange; auto.
Qed.
Print Assumptions C02_raster_cells_once.

(** C03.  Number of blocks. *)
Theorem C03_block_count : forall nr_threads size,
  1 <= nr_threads -> 0 <= size < 2 ^ 64 ->
  exists blocks, index_ranges_1d nr_threads size = Some blocks /\
    (size = 0 -> length blocks = 0%nat) /\
    (0 < size < nr_threads -> length blocks = 1%nat) /\
    (nr_threads <= size ->
       nr_threads <= Z.of_nat (length blocks) <= 2 * nr_threads - 1) /\
    (nr_threads <= size -> nr_threads * (nr_threads - 1) <= size ->
       Z.of_nat (length blocks) <= nr_threads + 1).
Proof.
  intros n size Hn Hs.
  destruct (index_ranges_1d_spec n size Hn Hs) as (rs & H1 & H2 & H3 & H4).
  exists rs; split; [exact H1|]. split; [|split; [|split]].
  - intros ->. rewrite nr_blocks_zero in H2 by lia. lia.
  - intros H. rewrite nr_blocks_small in H2 by lia. lia.
  - intros H. rewrite H2. apply nr_blocks_bounds; lia.
  - intros H H'. rewrite H2. apply nr_blocks_documented; lia.
Qed.
Print Assumptions C03_block_count.

(** The upper bound is reached for every thread count, so the documented bound ("equal to
    nr_threads or at most one more") fails from three threads on. *)
Theorem C03_documented_bound_refuted : forall nr_threads,
  3 <= nr_threads -> 2 * nr_threads < 2 ^ 64 ->
  exists size blocks, nr_threads <= size /\
    index_ranges_1d nr_threads size = Some blocks /\
    Z.of_nat (length blocks) = 2 * nr_threads - 1 /\
    nr_threads + 1 < Z.of_nat (length blocks).
Proof.
  intros n Hn Hb.
  destruct (index_ranges_1d_spec n (2 * n - 1)) as (rs & H1 & H2 & H3 & H4);
    [lia|unfold size_t_max_plus_1; lia|].
  rewrite nr_blocks_worst in H2 by lia.
  exists (2 * n - 1), rs. repeat split; auto; lia.
Qed.
Print Assumptions C03_documented_bound_refuted.

Example C03_case :
  option_map (@length range) (index_ranges_1d 4 7) = Some 7%nat /\
  option_map (@length range) (index_ranges_1d 4 103) = Some 5%nat /\
  option_map (@length range) (index_ranges_1d 4 3) = Some 1%nat.
Proof. vm_compute; repeat split. Qed.

(** C04.  Queries on ranges built with [begin <= end]. *)
Theorem C04_range_queries : forall b e r,
  0 <= b -> e < 2 ^ 64 -> index_range b e = Some r ->
  (range_empty r = true <-> indices r = []) /\
  range_size r = Z.of_nat (length (indices r)) /\
  (forall i, In i (indices r) <-> b <= i < e).
Proof.
  intros b e r Hb He H. unfold index_range in H.
  destruct (Z.leb_spec b e); inversion H; subst; clear H.
  split; [|split].
  - apply range_empty_spec; simpl; lia.
  - apply range_size_spec; simpl; unfold size_t_max_plus_1; lia.
  - intros i; apply in_zrange.
Qed.
Print Assumptions C04_range_queries.

(** For any number of dimensions; the size wraps modulo 2^64 like every [size_t]. *)
Theorem C04_ranges_queries : forall rs,
  Forall (fun r => 0 <= rbegin r <= rend r /\ rend r < 2 ^ 64) rs ->
  (ranges_empty rs = true <-> cells rs = []) /\
  ranges_size rs = Z.of_nat (length (cells rs)) mod 2 ^ 64 /\
  (Z.of_nat (length (cells rs)) < 2 ^ 64 ->
     ranges_size rs = Z.of_nat (length (cells rs))).
Proof.
  intros rs H.
  assert (E : ranges_size rs = Z.of_nat (length (cells rs)) mod 2 ^ 64)
    by (apply ranges_size_spec; auto).
  split; [|split; [exact E|]].
  - apply ranges_empty_spec; auto.
  - intros Hb. rewrite E. apply Z.mod_small; lia.
Qed.
Print Assumptions C04_ranges_queries.

Theorem C04_ranges_equality : forall rs1 rs2, ranges_eqb rs1 rs2 = true <-> rs1 = rs2.
Proof. exact ranges_eqb_spec. Qed.
Print Assumptions C04_ranges_equality.

Example C04_case :
  let rs := [{| rbegin := 2; rend := 5 |}; {| rbegin := 1; rend := 3 |}] in
  Forall (fun r => 0 <= rbegin r <= rend r /\ rend r < 2 ^ 64) rs /\
  ranges_size rs = 6 /\ ranges_empty rs = false /\
  cells rs = [[2;1];[2;2];[3;1];[3;2];[4;1];[4;2]].
Proof. simpl. repeat constructor; simpl; lia. Qed.
