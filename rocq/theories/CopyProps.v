(** * Properties C35-C38: copy, compress, decompress and offset *)
From Coq Require Import ZArith List Bool Lia.
From Verif Require Import LangModel LangProofs ConcModel IndexModel IndexSpec IndexProofs
  LoopModel LoopSpec LoopProofs PolicyModel LocalSpec AggSpec IntsModel ArithProofs CoreModel CoreSpec
  CopyModel CopySpec MoveProofs CopyProofs OffsetProofs CompressProofs ExampleMem.
Import ListNotations.
Open Scope Z_scope.

(** ** C35: copy *)
Section C35.
Context {V : Type}.
Variables (ip : inpol V) (op : outpol V) (src dst : buf) (m : mem V).

(** Arrays of [n] elements each; range [r] of the source goes to [pos] of the destination. *)
Theorem C35_copy n r pos :
  src <> dst -> policy_apart ip op dst -> marks_result op dst ->
  0 <= rbegin r <= rend r -> rend r < 2 ^ 64 ->
  (forall i, In i (indices r) ->
     arg_exists ip src m i /\ result_exists op dst m (i - rbegin r + pos)) ->
  exists m1, run (copy_sequential ip op src dst n n r pos) m = Some (tt, m1) /\
    (forall i, In i (indices r) ->
       holds op dst m m1 (i - rbegin r + pos) (value_or_no_data (arg_at ip src m i))) /\
    changes_only op dst (zrange pos (pos + (rend r - rbegin r))) m m1 /\
    (rbegin r < rend r -> forall nr_threads, 1 <= nr_threads ->
       exists tasks, copy_parallel ip op src dst nr_threads n n r pos = Some tasks /\
         always_yields tasks m m1).
Proof.
  intros Hs Ha Hm Hr He Hex.
  destruct (copy_computes ip op src dst Hs Ha Hm m n r pos Hr He Hex) as (m1 & H1 & H2 & H3).
  exists m1. split; [auto|]. split; [|auto].
  intros i Hi. unfold indices in Hi. apply in_zrange in Hi.
  specialize (H2 (i - rbegin r + pos)).
  replace (i - rbegin r + pos - pos + rbegin r) with i in H2 by lia.
  apply H2, in_zrange. lia.
Qed.

(** Nothing is copied for an empty range, but only the sequential version is defined for it. *)
Theorem C35_copy_empty n r pos :
  rbegin r = rend r ->
  run (copy_sequential ip op src dst n n r pos) m = Some (tt, m) /\
  forall nr_threads, 1 <= nr_threads -> copy_parallel ip op src dst nr_threads n n r pos = None.
Proof.
  intros E. split.
  - unfold copy_sequential, copy_1d. rewrite Z.eqb_refl, fold_range_empty by lia. reflexivity.
  - intros k Hk. unfold copy_parallel. rewrite Z.eqb_refl. cbn [negb].
    destruct (index_ranges_chain k 0 Hk) as (rs & H1 & H2 & H3); [lia|].
    replace (range_size r) with 0 by (unfold range_size; rewrite E, Z.sub_diag; reflexivity).
    rewrite H1. destruct rs as [|r0 rs0]; auto.
    destruct H2 as (E1 & L & H2). apply chain_le in H2. lia.
Qed.

(** The arrays must have one size. *)
Theorem C35_copy_sizes n n' r pos nr_threads :
  n <> n' ->
  run (copy_sequential ip op src dst n n' r pos) m = None /\
  copy_parallel ip op src dst nr_threads n n' r pos = None.
Proof.
  intros Hn. unfold copy_sequential, copy_parallel.
  destruct (Z.eqb_spec n n'); [congruence|]. auto.
Qed.

(** Within one array, sequentially, towards the front: also if the ranges overlap. *)
Theorem C35_copy_within_array n r pos :
  pos <= rbegin r <= rend r ->
  (forall i, pos <= i < rend r -> mval m dst i <> None) ->
  exists m1, run (copy_sequential SkipNoData DontMarkNoData dst dst n n r pos) m = Some (tt, m1) /\
    (forall i, In i (indices r) -> mval m1 dst (i - rbegin r + pos) = mval m dst i) /\
    changes_only DontMarkNoData dst (zrange pos (pos + (rend r - rbegin r))) m m1.
Proof.
  intros Hr Hex. destruct (copy_down dst m (rbegin r) (rend r) pos Hr Hex) as (m1 & H1 & H2 & H3 & H4).
  exists m1. unfold copy_sequential. rewrite Z.eqb_refl. destruct r as [b e]. cbn [rbegin rend] in *.
  split; [auto|]. split; [|split].
  - intros i Hi. apply in_zrange in Hi. cbn in Hi. rewrite H2 by lia. f_equal. lia.
  - intros b' i [Hb|Hi]; apply H3; auto. right. rewrite in_zrange in Hi. auto.
  - intros; apply H4.
Qed.
End C35.
Print Assumptions C35_copy.
Print Assumptions C35_copy_empty.
Print Assumptions C35_copy_sizes.
Print Assumptions C35_copy_within_array.

(** Elements 1 and 2 to position 0 of the same array: the second task writes what the first
    reads. *)
Theorem C35_copy_within_array_races :
  let m := mem_of [[1; 2; 3]] [] in
  exists tasks,
    copy_parallel SkipNoData DontMarkNoData 0%nat 0%nat 2 3 3 {| rbegin := 1; rend := 3 |} 0
      = Some tasks /\ ~ no_race tasks m.
Proof.
  intros m. eexists; split; [reflexivity|]. intros H.
  destruct (exec [1%nat] (map (fun rp => copy_1d SkipNoData DontMarkNoData 0%nat 0%nat (fst rp) (snd rp))
     [({| rbegin := 1; rend := 2 |}, 0); ({| rbegin := 2; rend := 3 |}, 1)]) m) as [[ps m']|] eqn:E;
    [|discriminate].
  specialize (H [1%nat] ps m' E 0%nat 1%nat). cbn in E. inversion E; subst.
  edestruct H with (l := LV 0 1) (w := false) (w' := true) as [_ Hf];
    [discriminate|reflexivity|reflexivity|reflexivity|reflexivity|discriminate].
Qed.
Print Assumptions C35_copy_within_array_races.

Definition copy_mem : mem Z :=
  mem_of [[1; 2; 3; 4]; [9; 9; 9; 9]] [[false; true; false; false]; [false; false; false; false]].

Example C35_case :
  policy_apart (DetectByMask 0 true) (MarkByMask (V := Z) 1 true) 1 /\
  (forall i, In i (indices {| rbegin := 1; rend := 3 |}) ->
     arg_exists (DetectByMask 0 true) 0 copy_mem i /\
     result_exists (MarkByMask 1 true) 1 copy_mem (i - 1 + 2)) /\
  let r := run (copy_sequential (DetectByMask 0 true) (MarkByMask 1 true) 0 1 4 4
                  {| rbegin := 1; rend := 3 |} 2) copy_mem in
  values_of r 1 4 = [Some 9; Some 9; Some 9; Some 3] /\
  mask_of r 1 4 = [Some false; Some false; Some true; Some false].
Proof.
  split; [cbn; congruence|]. split; [|split; reflexivity].
  intros i Hi. apply in_zrange in Hi. cbn in Hi.
  assert (i = 1 \/ i = 2) as [-> | ->] by lia; repeat split; discriminate.
Qed.

(** ** C36: compress and decompress *)
Section C36.
Context {V : Type}.
Variables (C : ity) (ip : inpol V) (a rb : buf) (m : mem V).

(** The result may be the argument itself. *)
Theorem C36_compress_1d n :
  0 <= n ->
  (forall i, 0 <= i < n -> arg_exists ip a m i /\ mval m rb i <> None) ->
  let valid := valid_values ip a m (zrange 0 n) in
  exists m', run (compress_sequential_1d C ip a rb n n) m =
      Some (conv C (Z.of_nat (length valid)), m') /\
    starts_with rb valid m' /\ changes_front rb (Z.of_nat (length valid)) m m'.
Proof. apply compress_1d_sequential. Qed.

Theorem C36_compress_2d rows cols :
  0 <= rows -> 0 <= cols ->
  (forall i, 0 <= i < rows * cols -> arg_exists ip a m i /\ mval m rb i <> None) ->
  let valid := valid_values ip a m (zrange 0 (rows * cols)) in
  exists m', run (compress_sequential_2d C ip a rb rows cols (rows * cols)) m =
      Some (conv C (Z.of_nat (length valid)), m') /\
    starts_with rb valid m' /\ changes_front rb (Z.of_nat (length valid)) m m'.
Proof. apply compress_2d_sequential. Qed.

(** The count is the number of valid elements if its type can represent the size. *)
Theorem C36_count n l :
  length l = Z.to_nat n -> 0 <= n <= imax C ->
  conv C (Z.of_nat (length (valid_values ip a m l))) = Z.of_nat (length (valid_values ip a m l)).
Proof.
  intros Hl Hn. apply conv_id. pose proof (valid_values_length ip a m l).
  red. destruct C; cbn in *; lia.
Qed.

Variable op : outpol V.

Definition unpacked_outcome (i : Z) : outcome V :=
  value_or_no_data (if nd_at ip m i then None else mval m a (rank ip m i)).

(** For arrays of [n_compressed] and [n] elements *)
Theorem C36_decompress_1d n_compressed n :
  a <> rb -> policy_apart ip op rb -> marks_result op rb ->
  0 <= n -> n_compressed <= n ->
  (forall i, 0 <= i < n -> readable ip m i /\
     (nd_at ip m i = false -> mval m a (rank ip m i) <> None) /\ result_exists op rb m i) ->
  exists m', run (decompress_all_1d ip op a rb n_compressed n) m = Some (tt, m') /\
    (forall i, 0 <= i < n -> holds op rb m m' i (unpacked_outcome i)) /\
    changes_only op rb (zrange 0 n) m m'.
Proof.
  intros Hs Ha Hm Hn Hc Hex. apply (decompress_result ip op a rb Hs Ha Hm m n); auto.
  unfold decompress_all_1d. destruct (Z.leb_spec n_compressed n); [auto|lia].
Qed.

Theorem C36_decompress_2d n_compressed rows cols :
  a <> rb -> policy_apart ip op rb -> marks_result op rb ->
  0 <= rows -> 0 <= cols -> n_compressed <= rows * cols ->
  (forall i, 0 <= i < rows * cols -> readable ip m i /\
     (nd_at ip m i = false -> mval m a (rank ip m i) <> None) /\ result_exists op rb m i) ->
  exists m', run (decompress_all_2d ip op a rb n_compressed rows cols) m = Some (tt, m') /\
    (forall i, 0 <= i < rows * cols -> holds op rb m m' i (unpacked_outcome i)) /\
    changes_only op rb (zrange 0 (rows * cols)) m m'.
Proof.
  intros Hs Ha Hm Hr Hco Hc Hex. apply (decompress_result ip op a rb Hs Ha Hm m (rows * cols)); auto.
  - nia.
  - unfold decompress_all_2d. destruct (Z.leb_spec n_compressed (rows * cols)); [|lia].
    apply run_decompress_2d; auto.
Qed.
End C36.
Print Assumptions C36_compress_1d.
Print Assumptions C36_compress_2d.
Print Assumptions C36_count.
Print Assumptions C36_decompress_1d.
Print Assumptions C36_decompress_2d.

(** Compressing [a] into [c] and decompressing that into [rb], with the no-data of [a]: the
    policy does not look at the values of [c]. *)
Section RoundTrip.
Context {V : Type}.
Variables (C : ity) (ip : inpol V) (op : outpol V) (a c rb : buf) (m : mem V).

Definition ignores_values_of (b : buf) : Prop :=
  match ip with DetectByValue b' _ => b' <> b | _ => True end.

Lemma ignores_nd m1 i : ignores_values_of c ->
  (forall b, b <> c -> mval m1 b i = mval m b i) -> (forall b, mmsk m1 b i = mmsk m b i) ->
  nd_at ip m1 i = nd_at ip m i /\ (readable ip m i -> readable ip m1 i).
Proof. unfold ignores_values_of. intros H H1 H2. destruct ip; cbn; rewrite ?H2, ?H1 by auto; auto. Qed.

Lemma round_trip n compressed : 
  c <> rb -> policy_apart ip op rb -> marks_result op rb -> ignores_values_of c ->
  0 <= n ->
  (forall i, 0 <= i < n ->
     arg_exists ip a m i /\ mval m c i <> None /\ result_exists op rb m i) ->
  starts_with c (valid_values ip a m (zrange 0 n)) compressed ->
  changes_front c (Z.of_nat (length (valid_values ip a m (zrange 0 n)))) m compressed ->
  (forall i, 0 <= i < n -> readable ip compressed i /\
     (nd_at ip compressed i = false -> mval compressed c (rank ip compressed i) <> None) /\
     result_exists op rb compressed i /\
     unpacked_outcome ip c compressed i = value_or_no_data (arg_at ip a m i)).
Proof.
  intros Hcr Hap Hm Hig Hn Hex Hst [Hch1 Hch2] i Hi.
  assert (Hnd : forall j, nd_at ip compressed j = nd_at ip m j /\ (readable ip m j -> readable ip compressed j)).
  { intros j. apply ignores_nd; auto. }
  assert (Hrank : rank ip compressed i = rank ip m i).
  { unfold rank. do 2 f_equal. apply filter_ext. intros j. rewrite (proj1 (Hnd j)). auto. }
  assert (Hsrc : forall j, 0 <= j < n -> mval m a j <> None) by (intros j Hj; apply Hex; auto).
  assert (Hval : nd_at ip m i = false -> mval compressed c (rank ip m i) = mval m a i).
  { intros Hv. rewrite <- (nth_valid ip c rb Hcr m a n i Hi Hsrc Hv).
    rewrite <- Hst by (apply (rank_bound ip c rb); auto). f_equal. rewrite Z2Nat.id; auto.
    unfold rank. lia. }
  destruct (Hex i Hi) as ((E1 & E2) & E3 & [E4 E5]).
  split; [apply Hnd; auto|]. rewrite (proj1 (Hnd i)), Hrank. split; [|split].
  - intros Hv. rewrite Hval; auto.
  - split.
    + rewrite Hch1; auto.
    + destruct op; auto. rewrite Hch2; auto.
  - unfold unpacked_outcome, arg_at. rewrite (proj1 (Hnd i)), Hrank.
    destruct (nd_at ip m i) eqn:E; auto. rewrite Hval; auto.
Qed.

Theorem C36_round_trip_1d n :
  c <> rb -> policy_apart ip op rb -> marks_result op rb -> ignores_values_of c ->
  0 <= n ->
  (forall i, 0 <= i < n ->
     arg_exists ip a m i /\ mval m c i <> None /\ result_exists op rb m i) ->
  exists count compressed m',
    run (compress_sequential_1d C ip a c n n) m = Some (count, compressed) /\
    run (decompress_all_1d ip op c rb n n) compressed = Some (tt, m') /\
    forall i, 0 <= i < n -> holds op rb m m' i (value_or_no_data (arg_at ip a m i)).
Proof.
  intros Hcr Hap Hm Hig Hn Hex.
  destruct (C36_compress_1d C ip a c m n Hn) as (compressed & H1 & H2 & H3).
  { intros i Hi. destruct (Hex i Hi) as (A & B & _). auto. }
  pose proof (round_trip n compressed Hcr Hap Hm Hig Hn Hex H2 H3) as Hrt.
  destruct (C36_decompress_1d ip c rb compressed op n n Hcr Hap Hm Hn) as (m' & D1 & D2 & D3); [lia| |].
  { intros i Hi. destruct (Hrt i Hi) as (A & B & C0 & _). auto. }
  eexists _, compressed, m'. split; [exact H1|]. split; [exact D1|].
  intros i Hi. destruct (Hrt i Hi) as (_ & _ & _ & E). specialize (D2 i Hi). rewrite E in D2.
  destruct D2 as [A B], H3 as [P Q]. split.
  - rewrite A. rewrite P; auto.
  - intros b Hb. rewrite (B b Hb), Q. auto.
Qed.

Theorem C36_round_trip_2d rows cols :
  c <> rb -> policy_apart ip op rb -> marks_result op rb -> ignores_values_of c ->
  0 <= rows -> 0 <= cols ->
  (forall i, 0 <= i < rows * cols ->
     arg_exists ip a m i /\ mval m c i <> None /\ result_exists op rb m i) ->
  exists count compressed m',
    run (compress_sequential_2d C ip a c rows cols (rows * cols)) m = Some (count, compressed) /\
    run (decompress_all_2d ip op c rb (rows * cols) rows cols) compressed = Some (tt, m') /\
    forall i, 0 <= i < rows * cols -> holds op rb m m' i (value_or_no_data (arg_at ip a m i)).
Proof.
  intros Hcr Hap Hm Hig Hr Hc Hex.
  destruct (C36_compress_2d C ip a c m rows cols Hr Hc) as (compressed & H1 & H2 & H3).
  { intros i Hi. destruct (Hex i Hi) as (A & B & _). auto. }
  pose proof (round_trip (rows * cols) compressed Hcr Hap Hm Hig ltac:(nia) Hex H2 H3) as Hrt.
  destruct (C36_decompress_2d ip c rb compressed op (rows * cols) rows cols Hcr Hap Hm Hr Hc)
    as (m' & D1 & D2 & D3); [lia| |].
  { intros i Hi. destruct (Hrt i Hi) as (A & B & C0 & _). auto. }
  eexists _, compressed, m'. split; [exact H1|]. split; [exact D1|].
  intros i Hi. destruct (Hrt i Hi) as (_ & _ & _ & E). specialize (D2 i Hi). rewrite E in D2.
  destruct D2 as [A B], H3 as [P Q]. split.
  - rewrite A. rewrite P; auto.
  - intros b Hb. rewrite (B b Hb), Q. auto.
Qed.
End RoundTrip.
Print Assumptions C36_round_trip_1d.
Print Assumptions C36_round_trip_2d.

(** Six elements of which two are no-data. *)
Definition compress_mem : mem Z :=
  mem_of [[1; 2; 3; 4; 5; 6]; [0; 0; 0; 0; 0; 0]; [7; 7; 7; 7; 7; 7]]
         [[false; true; false; false; true; false]; []; [false; false; false; false; false; false]].

Ltac six_cells i := assert (Hcells : i = 0 \/ i = 1 \/ i = 2 \/ i = 3 \/ i = 4 \/ i = 5) by lia;
  destruct Hcells as [-> | [-> | [-> | [-> | [-> | ->]]]]].

Example C36_case :
  policy_apart (DetectByMask 0 true) (MarkByMask (V := Z) 2 true) 2 /\
  ignores_values_of (V := Z) (DetectByMask 0 true) 1 /\
  (forall i, 0 <= i < 2 * 3 ->
     arg_exists (DetectByMask 0 true) 0 compress_mem i /\ mval compress_mem 1 i <> None /\
     result_exists (MarkByMask 2 true) 2 compress_mem i) /\
  match run (compress_sequential_2d U64 (DetectByMask 0 true) 0 1 2 3 6) compress_mem with
  | Some (count, m) =>
      count = 4 /\ values_of (Some (tt, m)) 1 6 = [Some 1; Some 3; Some 4; Some 6; Some 0; Some 0] /\
      let r := run (decompress_all_2d (DetectByMask 0 true) (MarkByMask 2 true) 1 2 6 2 3) m in
      values_of r 2 6 = [Some 1; Some 7; Some 3; Some 4; Some 7; Some 6] /\
      mask_of r 2 6 = [Some false; Some true; Some false; Some false; Some true; Some false]
  | None => False
  end.
Proof.
  split; [cbn; congruence|]. split; [exact I|]. split; [|vm_compute; auto].
  intros i Hi. six_cells i; repeat split; discriminate.
Qed.

(** ** C37: parallel compress *)
Section C37.
Context {V : Type}.
Variables (C : ity) (ip : inpol V) (a rb : buf) (m : mem V).

Theorem C37_compress_parallel_1d n nr_threads :
  0 <= n <= imax C -> n < 2 ^ 64 -> 1 <= nr_threads ->
  (forall i, 0 <= i < n -> arg_exists ip a m i /\ mval m rb i <> None) ->
  let valid := valid_values ip a m (zrange 0 n) in
  exists tasks join, compress_parallel_1d C ip a rb nr_threads n n = Some (tasks, join) /\
    tasks_join tasks join m (fun count m' =>
      count = Z.of_nat (length valid) /\ starts_with rb valid m' /\ changes_front rb n m m').
Proof. apply compress_1d_parallel. Qed.

Theorem C37_compress_parallel_2d rows cols nr_threads :
  0 <= rows -> 0 <= cols -> rows * cols <= imax C -> rows * cols < 2 ^ 64 -> rows < 2 ^ 64 ->
  1 <= nr_threads ->
  (forall i, 0 <= i < rows * cols -> arg_exists ip a m i /\ mval m rb i <> None) ->
  let valid := valid_values ip a m (zrange 0 (rows * cols)) in
  exists tasks join,
    compress_parallel_2d C ip a rb nr_threads rows cols (rows * cols) = Some (tasks, join) /\
    tasks_join tasks join m (fun count m' =>
      count = Z.of_nat (length valid) /\ starts_with rb valid m' /\
      changes_front rb (rows * cols) m m').
Proof. apply compress_2d_parallel. Qed.

(** So the count and the first elements are those of the sequential version. *)
Theorem C37_same_as_sequential n nr_threads :
  0 <= n <= imax C -> n < 2 ^ 64 -> 1 <= nr_threads ->
  (forall i, 0 <= i < n -> arg_exists ip a m i /\ mval m rb i <> None) ->
  exists count m1 tasks join,
    run (compress_sequential_1d C ip a rb n n) m = Some (count, m1) /\
    compress_parallel_1d C ip a rb nr_threads n n = Some (tasks, join) /\
    tasks_join tasks join m (fun count' m2 =>
      count' = count /\ forall k, 0 <= k < count -> mval m2 rb k = mval m1 rb k).
Proof.
  intros Hn H64 Ht Hex.
  destruct (C36_compress_1d C ip a rb m n ltac:(lia) Hex) as (m1 & H1 & H2 & _).
  destruct (C37_compress_parallel_1d n nr_threads Hn H64 Ht Hex) as (tasks & join & H3 & H4 & H5).
  rewrite (C36_count C ip a m n) in H1 by (auto; rewrite length_zrange; f_equal; lia).
  eexists _, m1, tasks, join. split; [exact H1|]. split; [exact H3|]. split; [exact H4|].
  intros sched. destruct (H5 sched) as (ps & m2 & E1 & E2 & E3). exists ps, m2.
  split; [auto|split; [|auto]]. intros results Hr.
  destruct (E2 results Hr) as (b & m3 & R1 & R2 & R3 & _). exists b, m3. split; [auto|]. split; [auto|].
  intros k Hk. rewrite <- (Z2Nat.id k) by lia. rewrite R3, H2 by lia. auto.
Qed.
End C37.
Print Assumptions C37_compress_parallel_1d.
Print Assumptions C37_compress_parallel_2d.
Print Assumptions C37_same_as_sequential.

(** Completing the tasks one after the other, and joining. *)
Definition run_join {V A B} (tj : option (list (prog V A) * (list A -> prog V B))) (m : mem V) :=
  match tj with
  | Some (tasks, join) => run (bind (seq_all tasks) join) m
  | None => None
  end.

(** The elements after the first [count] do differ: two threads, four elements of which the
    first is no-data. *)
Theorem C37_tail_differs :
  let m := mem_of [[1; 2; 3; 4]; [0; 0; 0; 0]] [[true; false; false; false]] in
  values_of (run (compress_sequential_1d U64 (DetectByMask 0 true) 0 1 4 4) m) 1 4
    = [Some 2; Some 3; Some 4; Some 0] /\
  values_of (run_join (compress_parallel_1d U64 (DetectByMask 0 true) 0 1 2 4 4) m) 1 4
    = [Some 2; Some 3; Some 4; Some 4].
Proof. split; reflexivity. Qed.
Print Assumptions C37_tail_differs.

(** The size must be representable in the type of the count.  With a count of type [uint8_t],
    512 valid elements and two threads, each task counts zero elements and the second half
    ends up in front. *)
Definition count_mem : mem Z :=
  {| mval := fun b i => if (0 <=? i) && (i <? 512) then Some i else None; mmsk := fun _ _ => None |}.

Theorem C37_small_count_refuted :
  length (valid_values SkipNoData 0%nat count_mem (zrange 0 512)) = 512%nat /\
  match run_join (compress_parallel_1d U8 SkipNoData 0%nat 1%nat 2 512 512) count_mem with
  | Some (count, m') => count = 0 /\ mval m' 1%nat 0 = Some 256
  | None => False
  end.
Proof. split; vm_compute; auto. Qed.
Print Assumptions C37_small_count_refuted.

Example C37_case :
  (forall i, 0 <= i < 2 * 3 ->
     arg_exists (DetectByMask 0 true) 0 compress_mem i /\ mval compress_mem 1 i <> None) /\
  match run_join (compress_parallel_2d U64 (DetectByMask 0 true) 0 1 2 2 3 6) compress_mem with
  | Some (count, m') =>
      count = 4 /\ values_of (Some (tt, m')) 1 6 = [Some 1; Some 3; Some 4; Some 6; Some 0; Some 0]
  | None => False
  end.
Proof.
  split; [|vm_compute; auto]. intros i Hi. six_cells i; repeat split; discriminate.
Qed.

(** ** C38: offset *)
Section C38.
Context {V : Type}.
Variable T : ity.   (** the type of the offsets *)
Variables (ip : inpol V) (op : outpol V) (a rb : buf) (m : mem V).

(** The elements that receive no element are marked as no-data. *)
Theorem C38_offset_1d n d :
  a <> rb -> policy_apart ip op rb -> marks_result op rb -> representable T n d ->
  (forall i, 0 <= i < n -> arg_exists ip a m i /\ result_exists op rb m i) ->
  computes_on (offset_sequential_1d T ip op a rb (mark_cell op) n d)
    (fun threads => offset_parallel_1d T ip op a rb threads (mark_cell op) n d) op rb (zrange 0 n)
    (shifted n d (fun i => value_or_no_data (arg_at ip a m i)) NoData) m.
Proof.
  intros Ha Hp Hm Hr Hex. apply (offset_1d_computes T ip op a rb Ha Hp Hm (mark_cell op) None); auto.
  apply mark_outside.
Qed.

Theorem C38_offset_2d rows cols d1 d2 :
  a <> rb -> policy_apart ip op rb -> marks_result op rb ->
  representable T rows d1 -> representable T cols d2 ->
  (forall i, 0 <= i < rows * cols -> arg_exists ip a m i /\ result_exists op rb m i) ->
  computes_on (offset_sequential_2d T ip op a rb (mark_cell op) rows cols d1 d2)
    (fun threads => offset_parallel_2d T ip op a rb threads (mark_cell op) rows cols d1 d2) op rb
    (zrange 0 (rows * cols))
    (shifted_2d rows cols d1 d2 (fun i => value_or_no_data (arg_at ip a m i)) NoData) m.
Proof.
  intros Ha Hp Hm H1 H2 Hex. apply (offset_2d_computes T ip op a rb Ha Hp Hm (mark_cell op) None); auto.
  apply mark_outside.
Qed.

(** They are given the fill value. *)
Theorem C38_offset_fill_1d fill_value n d :
  a <> rb -> policy_apart ip op rb -> marks_result op rb -> representable T n d ->
  (forall i, 0 <= i < n -> arg_exists ip a m i /\ result_exists op rb m i) ->
  computes_on (offset_sequential_1d T ip op a rb (fill_cell rb fill_value) n d)
    (fun threads => offset_parallel_1d T ip op a rb threads (fill_cell rb fill_value) n d) op rb
    (zrange 0 n)
    (shifted n d (fun i => value_or_no_data (arg_at ip a m i)) (Value fill_value)) m.
Proof.
  intros Ha Hp Hm Hr Hex.
  apply (offset_1d_computes T ip op a rb Ha Hp Hm (fill_cell rb fill_value) (Some fill_value)); auto.
  apply fill_outside.
Qed.

Theorem C38_offset_fill_2d fill_value rows cols d1 d2 :
  a <> rb -> policy_apart ip op rb -> marks_result op rb ->
  representable T rows d1 -> representable T cols d2 ->
  (forall i, 0 <= i < rows * cols -> arg_exists ip a m i /\ result_exists op rb m i) ->
  computes_on (offset_sequential_2d T ip op a rb (fill_cell rb fill_value) rows cols d1 d2)
    (fun threads => offset_parallel_2d T ip op a rb threads (fill_cell rb fill_value) rows cols d1 d2)
    op rb (zrange 0 (rows * cols))
    (shifted_2d rows cols d1 d2 (fun i => value_or_no_data (arg_at ip a m i)) (Value fill_value)) m.
Proof.
  intros Ha Hp Hm H1 H2 Hex.
  apply (offset_2d_computes T ip op a rb Ha Hp Hm (fill_cell rb fill_value) (Some fill_value)); auto.
  apply fill_outside.
Qed.

(** With offsets of type [int] and between 2^31 and 2^32 elements, whatever the offset: an
    overflow, or an access outside the arrays. *)
Theorem C38_offset_many_elements_refuted init n d :
  2 ^ 31 <= n < 2 ^ 32 -> imin S32 <= d <= imax S32 ->
  (forall i, mval m rb i <> None <-> 0 <= i < n) ->
  run (offset_sequential_1d S32 SkipNoData DontMarkNoData a rb init n d) m = None.
Proof.
  intros Hn Hd Hrb. cbn in Hd.
  assert (Hconv : conv S32 n = n - 2 ^ 32) by (rewrite conv_over; [reflexivity|cbn; lia]).
  unfold offset_sequential_1d. destruct (Z.eqb_spec n 0); [lia|]. rewrite run_seq.
  assert (E : run (offset_copy_1d S32 SkipNoData DontMarkNoData a rb n d (whole1 n)) m = None);
    [|rewrite E; auto].
  assert (Hloop : forall r o i, In i (indices r) -> ~ 0 <= i + o < n ->
    run (loop1 r (fun i => move_cell SkipNoData DontMarkNoData a rb i (i + o))) m = None).
  { intros r o i Hi Hout. rewrite run_loop1.
    assert (G : forall l m', dom_eq m m' -> In i l ->
      run (for_list l (fun i => move_cell SkipNoData DontMarkNoData a rb i (i + o))) m' = None).
    { induction l as [|j l IH]; intros m' Hdom Hi'; [destruct Hi'|]. destruct Hi' as [->|Hin].
      - cbn [for_list]. rewrite run_seq. cbn. destruct (mval m' a i); auto. cbn.
        assert (Hnone : mval m' rb (i + o) = None).
        { apply (proj1 Hdom). destruct (mval m rb (i + o)) eqn:E; auto.
          exfalso. apply Hout, Hrb. congruence. }
        rewrite Hnone. auto.
      - cbn [for_list]. rewrite run_seq.
        destruct (run (move_cell _ _ _ _ j (j + o)) m') as [[u m1]|] eqn:E; auto.
        apply IH; auto. eapply dom_eq_trans; eauto. eapply run_dom; eauto. }
    apply G; auto. apply dom_eq_refl. }
  unfold offset_copy_1d, range_to_copy. destruct (Z.leb_spec d 0) as [Hneg|Hpos].
  - unfold clamp_negative. rewrite Hconv.
    destruct (Z.eq_dec n (2 ^ 31)) as [->|Hne]; [reflexivity|].
    assert (Ea : forall z, - 2 ^ 31 <= z < 2 ^ 31 -> arith false S32 z = Some z)
      by (intros z Hz; apply arith_fits; [auto|cbn; lia]).
    rewrite Ea by lia. cbn [option_map]. rewrite Ea by lia.
    replace (Z.max d (- (n - 2 ^ 32))) with (2 ^ 32 - n) by lia.
    rewrite size_t_small by (unfold size_t_max_plus_1; lia). cbn [whole1 rbegin rend].
    replace (Z.min (Z.max (Z.abs (2 ^ 32 - n)) 0) n) with (2 ^ 32 - n) by lia.
    destruct (Z.leb_spec 0 (2 ^ 32 - n)); [|lia]. destruct (Z.leb_spec (2 ^ 32 - n) n); [|lia].
    destruct (Z.leb_spec 0 n); [|lia]. cbn [andb]. unfold index_range.
    destruct (Z.leb_spec (2 ^ 32 - n) n); [|lia]. cbn [option_map].
    apply (Hloop _ _ (n - 1)); [|lia]. apply in_zrange. cbn [rbegin rend]. lia.
  - unfold clamp_positive. rewrite Hconv. replace (Z.min d (n - 2 ^ 32)) with (n - 2 ^ 32) by lia.
    destruct (Z.eq_dec n (2 ^ 31)) as [->|Hne]; [reflexivity|].
    rewrite arith_fits by (cbn; auto; lia).
    rewrite (size_t_small (Z.abs _)) by (unfold size_t_max_plus_1; lia).
    rewrite size_t_small by (unfold size_t_max_plus_1; lia). cbn [whole1 rbegin rend].
    destruct (Z.ltb_spec 0 n); [|lia].
    destruct (Z.leb_spec (Z.max 0 (Z.min n (n - Z.abs (n - 2 ^ 32)))) n); [|lia]. cbn [andb].
    unfold index_range.
    destruct (Z.leb_spec 0 (Z.max 0 (Z.min n (n - Z.abs (n - 2 ^ 32))))); [|lia]. cbn [option_map].
    apply (Hloop _ _ 0); [|lia]. apply in_zrange. cbn [rbegin rend]. lia.
Qed.
End C38.
Print Assumptions C38_offset_1d.
Print Assumptions C38_offset_2d.
Print Assumptions C38_offset_fill_1d.
Print Assumptions C38_offset_fill_2d.
Print Assumptions C38_offset_many_elements_refuted.

(** Two rows of three columns, shifted one row down and one column to the left; and six
    elements shifted by more than there are. *)
Example C38_case :
  policy_apart (DetectByMask 0 true) (MarkByMask (V := Z) 2 true) 2 /\
  representable S32 2 1 /\ representable S32 3 (-1) /\ representable S32 6 (-100) /\
  (forall i, 0 <= i < 2 * 3 ->
     arg_exists (DetectByMask 0 true) 0 compress_mem i /\
     result_exists (MarkByMask 2 true) 2 compress_mem i) /\
  (let r := run (offset_sequential_2d S32 (DetectByMask 0 true) (MarkByMask 2 true) 0 2
                  (mark_cell (MarkByMask 2 true)) 2 3 1 (-1)) compress_mem in
   values_of r 2 6 = [Some 7; Some 7; Some 7; Some 7; Some 3; Some 7] /\
   mask_of r 2 6 = [Some true; Some true; Some true; Some true; Some false; Some true]) /\
  values_of (run (offset_sequential_1d S32 (DetectByMask 0 true) (MarkByMask 2 true) 0 2
                  (fill_cell 2 8) 6 (-100)) compress_mem) 2 6 =
    [Some 8; Some 8; Some 8; Some 8; Some 8; Some 8].
Proof.
  split; [cbn; congruence|]. split; [repeat split; cbn; lia|]. split; [repeat split; cbn; lia|].
  split; [repeat split; cbn; lia|]. split; [|vm_compute; auto].
  intros i Hi. six_cells i; repeat split; discriminate.
Qed.
