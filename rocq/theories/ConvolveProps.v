(** * Properties C40-C43: convolution *)
From Coq Require Import ZArith List Bool Lia Permutation.
From Verif Require Import LangModel LangProofs ConcModel IndexModel IndexSpec IndexProofs IndexProps
  LoopModel LoopSpec LoopProofs PolicyModel LocalSpec FrozenProofs CoreModel CoreSpec
  CopySpec MoveProofs ConvolveModel ConvolveSpec ConvolveProofs ExampleMem.
Import ListNotations.
Open Scope Z_scope.

Section Convolution.
Context {V W SV SW : Type}.
Variable ar : arith V W SV SW.
Variables (ip : inpol V) (op : outpol V) (src dst : buf) (rows cols : Z) (k : kernel W).
Variables (alt : alternative) (oi : out_of_image) (keep : bool).
Variable m : mem V.

Notation sequential := (convolve_sequential ar ip op src dst rows cols k alt oi keep).
Notation parallel := (convolve_parallel ar ip op src dst rows cols k alt oi keep).
Notation convolved := (convolved ar ip src rows cols k alt oi keep m).
Notation in_image := (in_image rows cols).
Notation focal_average := (focal_average ar ip src rows cols m).

(** ** C40: the regions *)

(** The nine regions contain each cell of the raster exactly once. *)
Theorem C40_regions_partition :
  0 <= radius k -> 2 * radius k <= rows -> 2 * radius k <= cols ->
  Permutation (flat_map cells2 (regions rows cols (radius k))) (raster_cells rows cols).
Proof.
  intros Hr Hrows Hcols. set (r := radius k) in *.
  destruct (C02_raster_cells_once rows cols) as [Hnd Hin].
  assert (E : forall i j, In (i, j) (flat_map cells2 (regions rows cols r)) <->
                          In (i, j) (raster_cells rows cols)).
  { intros i j. rewrite Hin. unfold regions, cells2, low_part, mid_part, high_part, indices.
    cbn [flat_map fst snd rbegin rend]. rewrite app_nil_r, !in_app_iff.
    repeat match goal with |- context[In (i, j) (flat_map (fun i => map (fun j => (i, j)) ?l') ?l)] =>
      replace (In (i, j) (flat_map (fun i => map (fun j => (i, j)) l') l)) with
        (In (i, j) (product l l')) by reflexivity end.
    rewrite !in_product, !in_zrange. split.
    - intros H. repeat (destruct H as [H|H]; [lia|]). lia.
    - intros H. destruct (Z_lt_dec i r), (Z_lt_dec i (rows - r)), (Z_lt_dec j r), (Z_lt_dec j (cols - r));
        try (exfalso; lia); repeat first [left; lia | right]; lia. }
  apply NoDup_Permutation; auto.
  - apply (NoDup_incl_NoDup (l := raster_cells rows cols)); auto.
    + apply Nat2Z.inj_le.
      assert (L : forall a b c d, a <= b -> c <= d ->
        Z.of_nat (length (cells2 ({| rbegin := a; rend := b |}, {| rbegin := c; rend := d |}))) =
        (b - a) * (d - c)).
      { intros a b c d H1 H2. change (length (cells2 ({| rbegin := a; rend := b |}, {| rbegin := c; rend := d |})))
          with (length (product (zrange a b) (zrange c d))).
        rewrite length_product, !length_zrange. nia. }
      unfold regions, low_part, mid_part, high_part. cbn [flat_map]. rewrite !app_length, !Nat2Z.inj_add, !L by lia.
      change (raster_cells rows cols) with (product (zrange 0 rows) (zrange 0 cols)).
      rewrite length_product, !length_zrange. cbn [length]. nia.
    + intros [i j] H. apply E; auto.
  - intros [i j]. apply E.
Qed.

Hypothesis Hlarge : large_enough rows cols k oi.
Hypothesis Hstored : stored_apart ip src rows cols m op dst.
Hypothesis Hrep : replaceable ar ip src rows cols k alt keep m.

Lemma linear_bounds f : in_image f = true -> 0 <= linear cols f < rows * cols.
Proof. intros H. apply in_image_spec in H. unfold linear. nia. Qed.

(** Each border region, and any block of the inner region, is left with the expected
    results and changes nothing else. *)
Definition computes_region (p : prog V unit) (blk : block2) : Prop :=
  exists m1, run p m = Some (tt, m1) /\
    (forall f, In f (cells2 blk) -> holds op dst m m1 (linear cols f) (value_or_no_data (convolved f))) /\
    changes_only op dst (map (linear cols) (cells2 blk)) m m1.

Lemma does_computes p r1 r2 :
  0 <= rbegin r1 -> rend r1 <= rows -> 0 <= rbegin r2 -> rend r2 <= cols ->
  does (unwritten op dst) m p
    (flat_map (leave op dst (result ar ip src rows cols k alt oi keep m)) (places cols r1 r2)) tt ->
  computes_region p (r1, r2).
Proof.
  intros H1 H2 H3 H4 Hd. destruct Hstored as (Hex & Hsrc & _ & Hmarks).
  assert (Hf : forall f, In f (cells2 (r1, r2)) -> in_image f = true).
  { intros [i j] H. change (In (i, j) (product (indices r1) (indices r2))) in H.
    apply in_product in H. unfold indices in H. rewrite !in_zrange in H.
    apply in_image_spec. cbn. lia. }
  assert (Hres : forall d, In d (places cols r1 r2) -> result_exists op dst m d).
  { intros d H. apply in_map_iff in H as (f & <- & H). apply Hex. apply linear_bounds, Hf; auto. }
  eexists. split; [apply moves_sequential; eauto|].
  destruct (writes_moves op dst (result ar ip src rows cols k alt oi keep m) Hmarks
    (places cols r1 r2) m Hres) as [A B].
  split; [|exact B].
  intros f H. rewrite <- (result_at ar ip src dst rows cols k alt oi keep m Hsrc) by auto.
  apply A. apply in_map; auto.
Qed.

Theorem C40_border_regions :
  Forall2 computes_region (border_regions ar ip op src dst rows cols k alt oi keep)
    (removelast (regions rows cols (radius k))).
Proof.
  pose proof Hstored as (Hex & Hsrc & Hap & Hmarks).
  assert (Hex' : forall i, 0 <= i < rows * cols -> arg_exists ip src m i) by (intros; apply Hex; auto).
  destruct (sizes src dst rows cols k oi Hsrc Hlarge) as (S1 & S2 & S3).
  unfold border_regions, regions. cbn [removelast].
  repeat constructor; apply does_computes; unfold low_part, mid_part, high_part; cbn [rbegin rend]; try lia.
  - apply (does_north_west ar ip op src dst rows cols k alt oi keep m Hex' Hsrc Hap Hlarge Hrep).
  - apply (does_north_east ar ip op src dst rows cols k alt oi keep m Hex' Hsrc Hap Hlarge Hrep).
  - apply (does_south_west ar ip op src dst rows cols k alt oi keep m Hex' Hsrc Hap Hlarge Hrep).
  - apply (does_south_east ar ip op src dst rows cols k alt oi keep m Hex' Hsrc Hap Hlarge Hrep).
  - apply (does_north ar ip op src dst rows cols k alt oi keep m Hex' Hsrc Hap Hlarge Hrep).
  - apply (does_west ar ip op src dst rows cols k alt oi keep m Hex' Hsrc Hap Hlarge Hrep).
  - apply (does_east ar ip op src dst rows cols k alt oi keep m Hex' Hsrc Hap Hlarge Hrep).
  - apply (does_south ar ip op src dst rows cols k alt oi keep m Hex' Hsrc Hap Hlarge Hrep).
Qed.

Theorem C40_inner_region blk :
  radius k <= rbegin (fst blk) <= rend (fst blk) -> rend (fst blk) <= rows - radius k ->
  radius k <= rbegin (snd blk) <= rend (snd blk) -> rend (snd blk) <= cols - radius k ->
  computes_region (convolve_inner ar ip op src dst rows cols k alt oi keep blk) blk.
Proof.
  pose proof Hstored as (Hex & Hsrc & Hap & Hmarks).
  assert (Hex' : forall i, 0 <= i < rows * cols -> arg_exists ip src m i) by (intros; apply Hex; auto).
  destruct (sizes src dst rows cols k oi Hsrc Hlarge) as (S1 & S2 & S3).
  intros H1 H2 H3 H4. destruct blk as [r1 r2]. cbn [fst snd] in *.
  apply does_computes; try lia.
  apply (does_inner ar ip op src dst rows cols k alt oi keep m Hex' Hsrc Hap Hlarge Hrep (r1, r2)); auto.
Qed.

(** ** C41: the result *)

Lemma computed :
  computes_on sequential parallel op dst (zrange 0 (rows * cols))
    (fun i => value_or_no_data (convolved (i / cols, i mod cols))) m.
Proof.
  destruct Hstored as (Hex & Hsrc & Hap & Hmarks).
  apply convolve_computes; auto; intros; apply Hex; auto.
Qed.

Theorem C41_convolve :
  exists m1, run sequential m = Some (tt, m1) /\
    (forall f, in_image f = true -> holds op dst m m1 (linear cols f) (value_or_no_data (convolved f))) /\
    changes_only op dst (zrange 0 (rows * cols)) m m1.
Proof.
  pose proof Hstored as (_ & Hsrc & _ & _).
  destruct computed as (m1 & H1 & H2 & H3 & _). exists m1. split; [auto|]. split; [|auto].
  intros f Hf. rewrite <- (result_at ar ip src dst rows cols k alt oi keep m Hsrc) by auto.
  apply H2. apply in_zrange. apply linear_bounds; auto.
Qed.

(** ** C42: in parallel *)

Theorem C42_convolve_parallel nr_threads :
  1 <= nr_threads ->
  exists tasks m1, parallel nr_threads = Some tasks /\
    run sequential m = Some (tt, m1) /\ always_yields tasks m m1.
Proof.
  intros Hn. destruct computed as (m1 & H1 & _ & _ & H4). destruct (H4 _ Hn) as (tasks & H5 & H6).
  exists tasks, m1. auto.
Qed.

End Convolution.
Print Assumptions C40_regions_partition.
Print Assumptions C40_border_regions.
Print Assumptions C40_inner_region.
Print Assumptions C41_convolve.
Print Assumptions C42_convolve_parallel.

(** A kernel that does not fit twice in the image is refused. *)
Theorem C42_too_small {V W SV SW} (ar : arith V W SV SW) ip op src dst rows cols k alt oi keep n :
  rows < 2 * radius k \/ cols < 2 * radius k ->
  convolve_parallel ar ip op src dst rows cols k alt oi keep n = None.
Proof.
  intros H. unfold convolve_parallel.
  destruct (Z.leb_spec (2 * radius k) rows), (Z.leb_spec (2 * radius k) cols); auto; lia.
Qed.
Print Assumptions C42_too_small.

(** ** C43: focal averages *)
Section FocalAverage.
Context {V W SV SW : Type}.
Variable ar : arith V W SV SW.
Variables (ip : inpol V) (src : buf) (rows cols : Z) (k : kernel W) (m : mem V).

(** There is one exactly if a valid cell of the image touches the cell. *)
Theorem C43_focal_average_exists i j :
  focal_average ar ip src rows cols m (i, j) <> None <->
  exists a b, 0 <= a < rows /\ 0 <= b < cols /\ Z.abs (a - i) <= 1 /\ Z.abs (b - j) <= 1 /\
    (a, b) <> (i, j) /\ value_at ip src cols m (a, b) <> None.
Proof.
  unfold focal_average.
  assert (E : (match flat_map (fun d => listed (value_at ip src cols m d)) (neighbours rows cols (i, j)) with
    | [] => None
    | l => Some (average ar (fold_left (add ar) l (zero_v ar)) (Z.of_nat (length l)))
    end) <> None <->
    exists d, In d (neighbours rows cols (i, j)) /\ value_at ip src cols m d <> None).
  { split.
    - intros H. destruct (flat_map _ _) as [|v l] eqn:El; [congruence|].
      assert (Hv : In v (v :: l)) by (left; auto). rewrite <- El in Hv.
      apply in_flat_map in Hv as (d & Hd & Hv). exists d. split; auto.
      destruct (value_at ip src cols m d); [discriminate|destruct Hv].
    - intros (d & Hd & Hv). destruct (value_at ip src cols m d) as [v|] eqn:Ev; [|congruence].
      destruct (flat_map _ _) as [|x l] eqn:El; [|discriminate].
      assert (Hin : In v (flat_map (fun d => listed (value_at ip src cols m d)) (neighbours rows cols (i, j)))).
      { apply in_flat_map. exists d. rewrite Ev. cbn. auto. }
      rewrite El in Hin. destruct Hin. }
  rewrite E. clear E.
  assert (N : forall d, In d (neighbours rows cols (i, j)) <->
     (0 <= fst d < rows /\ 0 <= snd d < cols /\ Z.abs (fst d - i) <= 1 /\ Z.abs (snd d - j) <= 1 /\
      d <> (i, j))).
  { intros [a b]. rewrite neighbours_rect. rewrite filter_In. unfold rect.
    rewrite in_product, !in_zrange. unfold same_cell. cbn [fst snd].
    rewrite negb_true_iff, andb_false_iff, !Z.eqb_neq. split.
    - intros [H1 H2]. repeat split; try lia. intros [= -> ->]. lia.
    - intros (H1 & H2 & H3 & H4 & H5). split; [lia|].
      destruct (Z.eq_dec a i), (Z.eq_dec b j); auto. subst. congruence. }
  split.
  - intros ([a b] & H1 & H2). apply N in H1. cbn [fst snd] in H1. exists a, b. tauto.
  - intros (a & b & H). exists (a, b). rewrite N. cbn [fst snd]. tauto.
Qed.

(** If no-data focus elements are kept and the kernel extends one cell, there always is one
    when it is needed. *)
Theorem C43_replaceable alt keep :
  (forall i, 0 <= i < rows * cols -> arg_exists ip src m i) ->
  keep = true -> 0 <= radius k <= 1 -> replaceable ar ip src rows cols k alt keep m.
Proof.
  intros Hex -> Hr _ f q Hf Hnd Hq Hin _ Hv. cbn [andb] in Hnd.
  destruct f as [i j]. destruct (below k (i, j) q) as [a b] eqn:Eb.
  apply C43_focal_average_exists. exists i, j.
  apply in_image_spec in Hf. cbn [fst snd] in Hf.
  assert (Hi : 0 <= linear cols (i, j) < rows * cols) by (unfold linear; cbn; nia).
  assert (Hsome : value_at ip src cols m (i, j) <> None).
  { unfold value_at, arg_at. rewrite Hnd. destruct (Hex _ Hi) as [_ H]. auto. }
  destruct q as [qr qc]. apply in_kernel_cells in Hq. unfold width in Hq.
  unfold below in Eb. cbn [fst snd] in Eb. injection Eb as Ea Ebb.
  repeat split; try lia; auto. intros [= -> ->]. congruence.
Qed.

Lemma does_reads {A} (C : loc -> bool) (p : prog V A) (a : A) : does C m p [] a -> run p m = Some (a, m).
Proof. intros D. apply (does_run C m p [] a m); auto. intros l _. apply same_at_refl. Qed.

(** A no-data value is replaced by the average of the valid values around it.  If there are
    none, the assertion fails. *)
Theorem C43_no_data_replacement op dst i j :
  stored_apart ip src rows cols m op dst -> rows < 2 ^ 64 -> cols < 2 ^ 64 ->
  0 <= i < rows -> 0 <= j < cols ->
  run (no_data_by_focal_average ar ip src rows cols i j) m =
  option_map (fun v => (Some v, m)) (focal_average ar ip src rows cols m (i, j)).
Proof.
  intros (Hex & Hsd & Hap & _) Hr Hc Hi Hj.
  assert (Hx : forall i, 0 <= i < rows * cols -> arg_exists ip src m i) by (intros x Hx; apply Hex; auto).
  assert (Hin : in_image rows cols (i, j) = true) by (apply in_image_spec; auto).
  destruct (focal_average ar ip src rows cols m (i, j)) as [v|] eqn:E.
  - cbn [option_map]. rewrite <- E. eapply does_reads, does_alternative_average; eauto. congruence.
  - cbn [option_map]. rewrite focal_average_rect in E. cbn zeta in E. cbn [fst snd] in E.
    unfold no_data_by_focal_average. rewrite !size_t_small by (unfold size_t_max_plus_1; lia).
    replace (if 0 <? i then i - 1 else i) with (Z.max 0 (i - 1)) by (destruct (Z.ltb_spec 0 i); lia).
    replace (if 0 <? j then j - 1 else j) with (Z.max 0 (j - 1)) by (destruct (Z.ltb_spec 0 j); lia).
    replace (if i <? rows - 1 then i + 1 else i) with (Z.min rows (i + 2) - 1)
      by (destruct (Z.ltb_spec i (rows - 1)); lia).
    replace (if j <? cols - 1 then j + 1 else j) with (Z.min cols (j + 2) - 1)
      by (destruct (Z.ltb_spec j (cols - 1)); lia).
    rewrite run_bind. erewrite does_reads by (eapply does_scan; eauto; lia). cbn zeta. cbn [fst snd].
    destruct (0 <? _); [discriminate|reflexivity].
Qed.

(** A value outside of the image is replaced by the average of the valid values of the image
    that touch it, if there are any: for a focus cell [f] at side [s] of the image, where [w]
    is the part of the kernel that overlaps the image. *)
Theorem C43_out_of_image_replacement op dst s f w kr kc :
  stored_apart ip src rows cols m op dst -> large_enough rows cols k OutOfImageByFocalAverage ->
  at_side rows cols k s f -> window_of rows cols k f w ->
  0 <= kr < width k -> 0 <= kc < width k -> in_image rows cols (below k f (kr, kc)) = false ->
  run (out_of_image_value ar ip src rows cols OutOfImageByFocalAverage w kr kc s) m =
  Some (focal_average ar ip src rows cols m (below k f (kr, kc)), m).
Proof.
  intros (Hex & Hsd & Hap & _) Hl Hs Hw Hr Hc Ho.
  eapply does_reads, does_out_of_image; eauto. intros x Hx; apply Hex; auto.
Qed.

(** Every cell outside of the inner region is at exactly one of the sides. *)
Theorem C43_sides f : 0 <= radius k -> 2 * radius k <= rows -> 2 * radius k <= cols ->
  in_image rows cols f = true -> inner rows cols k f = false ->
  exists s, at_side rows cols k s f /\ forall s', at_side rows cols k s' f -> s' = s.
Proof.
  intros H1 H2 H3 Hf Hi. apply in_image_spec in Hf. destruct f as [i j]. cbn [fst snd] in *.
  apply not_true_iff_false in Hi. rewrite inner_spec in Hi. cbn [fst snd] in Hi.
  assert (D : forall n x, 2 * radius k <= n -> 0 <= x < n ->
    (low k n x /\ ~ middle k n x /\ ~ high k n x) \/ (middle k n x /\ ~ low k n x /\ ~ high k n x) \/
    (high k n x /\ ~ low k n x /\ ~ middle k n x)).
  { clear - H1. unfold low, middle, high. intros. lia. }
  destruct (D rows i H2 ltac:(lia)) as [R|[R|R]], (D cols j H3 ltac:(lia)) as [S|[S|S]];
    try (exfalso; apply Hi; unfold middle in *; lia);
    [exists NorthWest|exists North|exists NorthEast|exists West|exists East|exists SouthWest|exists South|exists SouthEast];
    (split; [cbn; tauto|]); intros s'; destruct s'; cbn; tauto.
Qed.
End FocalAverage.
(** The north west corner of an image of 3 by 3 cells, and a kernel of 3 by 3. *)
Example C43_case_corner :
  let k := {| radius := 1; weights := fun _ : Z => 1; weigh_values := true |} in
  large_enough 3 3 k OutOfImageByFocalAverage /\ at_side 3 3 k NorthWest (0, 0) /\
  window_of 3 3 k (0, 0) {| first_row_kernel := 1; first_col_kernel := 1; nr_rows_kernel := 2;
    nr_cols_kernel := 2; first_row_source := 0; first_col_source := 0 |} /\
  in_image 3 3 (below k (0, 0) (0, 1)) = false.
Proof.
  unfold large_enough, at_side, low. cbn. split; [lia|]. split; [lia|]. split; [constructor; reflexivity|reflexivity].
Qed.
Print Assumptions C43_no_data_replacement.
Print Assumptions C43_out_of_image_replacement.
Print Assumptions C43_sides.
Print Assumptions C43_focal_average_exists.
Print Assumptions C43_replaceable.

(** ** Concrete cases *)
(** Integer arithmetic; division by a zero sum of weights is made visible. *)
Definition ints : arith Z Z Z Z :=
  {| zero_v := 0; zero_w := 0; add := Z.add; add_scaled := fun s v w => s + v * w;
     add_weight := Z.add; add_one := fun s => s + 1; nonzero := fun w => negb (w =? 0);
     average := fun s n => s / n; in_range := fun s => Z.abs s <=? 1000;
     normalize := fun s w => if w =? 0 then -999 else s / w |}.
Definition box (r : Z) (weighed : bool) : kernel Z :=
  {| radius := r; weights := fun _ => 1; weigh_values := weighed |}.
(** Only the centre of a 3 x 3 kernel counts. *)
Definition centre : kernel Z :=
  {| radius := 1; weights := fun i => if i =? 4 then 1 else 0; weigh_values := true |}.

(** Buffer 0 is the source with mask buffer 0, buffer 1 the result with mask buffer 1. *)
Definition image (vs : list Z) (ms : list bool) : mem Z :=
  mem_of [vs; map (fun _ => -1) vs] [ms; map (fun _ => false) vs].
Definition by_mask : inpol Z := DetectByMask 0%nat true.
Definition to_mask : outpol Z := MarkByMask 1%nat true.
Definition outcome_of rows cols k alt oi keep (m : mem Z) :=
  run (convolve_sequential ints by_mask to_mask 0%nat 1%nat rows cols k alt oi keep) m.

Lemma image_stored rows cols vs ms : 0 <= rows * cols ->
  length vs = Z.to_nat (rows * cols) -> length ms = Z.to_nat (rows * cols) ->
  stored_apart by_mask 0%nat rows cols (image vs ms) to_mask 1%nat.
Proof.
  intros Hn Hv Hm.
  assert (H : forall X (l : list X) i, length l = Z.to_nat (rows * cols) -> 0 <= i < rows * cols ->
    at_index l i <> None).
  { intros X l i Hl Hi. unfold at_index. destruct (Z.ltb_spec i 0); [lia|]. apply nth_error_Some. lia. }
  split; [|split; [discriminate|split; cbn; [discriminate|auto]]].
  intros i Hi. cbn. repeat split; apply H; auto; rewrite map_length; auto.
Qed.

(** A 4 x 5 image with no-data at two cells: the hypotheses are met, and the results. *)
Definition pic : mem Z :=
  image [1; 2; 3; 4; 5;  6; 7; 8; 9; 10;  11; 12; 13; 14; 15;  16; 17; 18; 19; 20]
    [false; false; false; false; false;  false; true; false; false; false;
     false; false; false; false; false;  false; false; false; false; true].

Example C40_case : large_enough 4 5 (box 1 true) OutOfImageByFocalAverage /\
  stored_apart by_mask 0%nat 4 5 pic to_mask 1%nat /\
  replaceable ints by_mask 0%nat 4 5 (box 1 true) NoDataByFocalAverage true pic.
Proof.
  assert (S : stored_apart by_mask 0%nat 4 5 pic to_mask 1%nat) by (apply image_stored; cbn; auto; lia).
  split; [unfold large_enough; cbn; lia|]. split; [auto|].
  apply C43_replaceable; cbn; auto; try lia. intros; apply S; auto.
Qed.

Example C41_case :
  values_of (outcome_of 4 5 (box 1 true) SkipNoDataCells SkipOutOfImage true pic) 1%nat 20 =
    map Some [3; 4; 5; 6; 7;  6; -1; 8; 9; 9;  12; 12; 13; 13; 13;  14; 14; 15; 15; -1] /\
  mask_of (outcome_of 4 5 (box 1 true) SkipNoDataCells SkipOutOfImage true pic) 1%nat 20 =
    map Some [false; false; false; false; false;  false; true; false; false; false;
     false; false; false; false; false;  false; false; false; false; true].
Proof. vm_compute. auto. Qed.

(** All tasks one after the other, for two threads. *)
Example C42_case :
  match convolve_parallel ints by_mask to_mask 0%nat 1%nat 4 5 (box 1 false) NoDataByFocalAverage
          OutOfImageByFocalAverage true 2 with
  | Some tasks => length tasks = 10%nat /\
      values_of (run (seq_all tasks) pic) 1%nat 20 =
      values_of (outcome_of 4 5 (box 1 false) NoDataByFocalAverage OutOfImageByFocalAverage true pic) 1%nat 20
  | None => False
  end.
Proof. vm_compute. auto. Qed.

Example C43_case :
  focal_average ints by_mask 0%nat 4 5 pic (1, 1) = Some 7 /\
  focal_average ints by_mask 0%nat 4 5 pic (-1, 2) = Some 3 /\
  focal_average ints by_mask 0%nat 4 5 pic (4, 5) = None /\
  focal_average ints by_mask 0%nat 4 5 pic (-2, 2) = None.
Proof. vm_compute. auto. Qed.

(** ** Where the code deviates *)

(** With [2 * radius] rows or columns, replacing values outside of the image by focal averages
    reads outside of the image. *)
Theorem C43_smallest_image_refuted :
  forall rows cols, In (rows, cols) [(2, 2); (2, 3); (3, 2)] ->
  exists m, stored_apart by_mask 0%nat rows cols m to_mask 1%nat /\
    (forall i, 0 <= i < rows * cols -> nd_at by_mask m i = false) /\
    2 * radius (box 1 true) <= rows /\ 2 * radius (box 1 true) <= cols /\
    outcome_of rows cols (box 1 true) SkipNoDataCells OutOfImageByFocalAverage true m = None.
Proof.
  intros rows cols H.
  set (n := Z.to_nat (rows * cols)).
  exists (image (repeat 1 n) (repeat false n)).
  assert (Hn : 0 <= rows * cols) by (repeat destruct H as [H|H]; inversion H; subst; lia).
  split; [apply image_stored; rewrite ?repeat_length; auto|].
  split.
  - intros i Hi. cbn. unfold at_index. destruct (i <? 0); auto.
    destruct (nth_error (repeat false n) (Z.to_nat i)) as [b|] eqn:E; auto.
    apply nth_error_In, repeat_spec in E. subst; auto.
  - repeat destruct H as [H|H]; inversion H; subst; repeat split; try (cbn; lia); vm_compute; reflexivity.
Qed.
Print Assumptions C43_smallest_image_refuted.

(** If no-data focus elements are not kept, a no-data cell surrounded by no-data fails. *)
Theorem C43_surrounded_refuted :
  exists m, stored_apart by_mask 0%nat 3 3 m to_mask 1%nat /\
    large_enough 3 3 (box 1 true) SkipOutOfImage /\
    outcome_of 3 3 (box 1 true) NoDataByFocalAverage SkipOutOfImage false m = None.
Proof.
  exists (image [1; 2; 3; 4; 5; 6; 7; 8; 9] [true; true; false; true; true; false; false; false; false]).
  split; [apply image_stored; cbn; auto; lia|]. split; [unfold large_enough; cbn; lia|].
  vm_compute. reflexivity.
Qed.
Print Assumptions C43_surrounded_refuted.

(** Values from outside of the image count as seen even if their weight is zero: the sum of
    the weights by which the sum of the values is divided can be zero. *)
Theorem C41_zero_weights_refuted :
  exists m m1, stored_apart by_mask 0%nat 3 3 m to_mask 1%nat /\
    large_enough 3 3 centre OutOfImageByFocalAverage /\
    nd_at by_mask m 0 = true /\
    outcome_of 3 3 centre SkipNoDataCells OutOfImageByFocalAverage false m = Some (tt, m1) /\
    mval m1 1%nat 0 = Some (normalize ints 0 0) /\ mmsk m1 1%nat 0 = Some false.
Proof.
  exists (image [1; 2; 3; 4; 5; 6; 7; 8; 9] [true; false; false; false; false; false; false; false; false]).
  eexists. split; [apply image_stored; cbn; auto; lia|]. split; [unfold large_enough; cbn; lia|].
  split; [reflexivity|]. split; [vm_compute; reflexivity|]. split; vm_compute; reflexivity.
Qed.
Print Assumptions C41_zero_weights_refuted.

(** No-data below a zero weight of a boolean kernel is ignored in the inner region, but is
    replaced, and counts as seen, at the border. *)
Definition boolean_centre : kernel Z :=
  {| radius := 1; weights := fun i => if i =? 4 then 1 else 0; weigh_values := false |}.
Theorem C41_border_differs_from_inner :
  exists m, stored_apart by_mask 0%nat 3 3 m to_mask 1%nat /\
    large_enough 3 3 boolean_centre SkipOutOfImage /\
    nd_at by_mask m 1 = true /\
    contribution_inside ints by_mask 0%nat 3 3 boolean_centre NoDataByFocalAverage m (0, 0) (1, 2) <> None /\
    contribution_inside ints by_mask 0%nat 3 3 boolean_centre NoDataByFocalAverage m (1, 1) (0, 1) = None.
Proof.
  exists (image [1; 2; 3; 4; 5; 6; 7; 8; 9] [false; true; false; false; false; false; false; false; false]).
  split; [apply image_stored; cbn; auto; lia|]. split; [unfold large_enough; cbn; lia|].
  split; [reflexivity|]. split; vm_compute; congruence.
Qed.
Print Assumptions C41_border_differs_from_inner.
