(** Lemmas about index ranges and blocks. *)
From Coq Require Import ZArith List Bool Lia FinFun.
From Verif Require Import IndexModel IndexSpec.
Import ListNotations.
Open Scope Z_scope.

(** ** zrange *)

Lemma zrange_nil lo hi : hi <= lo -> zrange lo hi = [].
Proof. intros H; unfold zrange. replace (Z.to_nat (hi - lo)) with O by lia; auto. Qed.

Lemma zrange_cons lo hi : lo < hi -> zrange lo hi = lo :: zrange (lo + 1) hi.
Proof.
  intros H; unfold zrange.
  replace (Z.to_nat (hi - lo)) with (S (Z.to_nat (hi - (lo + 1)))) by lia.
  cbn [seq map]. f_equal; [lia|].
  rewrite <- seq_shift, map_map. apply map_ext; intros; lia.
Qed.

Lemma in_zrange lo hi x : In x (zrange lo hi) <-> lo <= x < hi.
Proof.
  unfold zrange; rewrite in_map_iff; split.
  - intros (k & <- & Hk). apply in_seq in Hk. lia.
  - intros H; exists (Z.to_nat (x - lo)); split; [lia|]. apply in_seq; lia.
Qed.

Lemma length_zrange lo hi : length (zrange lo hi) = Z.to_nat (hi - lo).
Proof. unfold zrange; rewrite map_length, seq_length; auto. Qed.

Lemma zrange_app lo mid hi : lo <= mid <= hi ->
  zrange lo hi = zrange lo mid ++ zrange mid hi.
Proof.
  intros H; unfold zrange.
  replace (Z.to_nat (hi - lo)) with (Z.to_nat (mid - lo) + Z.to_nat (hi - mid))%nat by lia.
  rewrite seq_app, map_app. f_equal. rewrite Nat.add_0_l.
  replace (Z.to_nat (mid - lo)) with (Z.to_nat (mid - lo) + 0)%nat at 1 by lia.
  generalize (Z.to_nat (hi - mid)) as n. generalize O as s.
  intros s n; revert s; induction n as [|n IH]; intros s; simpl; auto.
  f_equal; [lia|]. replace (S (Z.to_nat (mid - lo) + s)) with (Z.to_nat (mid - lo) + S s)%nat by lia.
  apply IH.
Qed.

Lemma NoDup_zrange lo hi : NoDup (zrange lo hi).
Proof.
  unfold zrange. apply FinFun.Injective_map_NoDup; [|apply seq_NoDup].
  intros a b; lia.
Qed.

Lemma nth_error_zrange lo hi k : (k < Z.to_nat (hi - lo))%nat ->
  nth_error (zrange lo hi) k = Some (lo + Z.of_nat k).
Proof.
  intros H; unfold zrange. rewrite nth_error_map.
  rewrite (nth_error_nth' (seq 0 (Z.to_nat (hi - lo))) O) by (rewrite seq_length; auto).
  rewrite seq_nth; auto.
Qed.

Lemma zrange_shift lo hi d : zrange (lo + d) (hi + d) = map (fun i => i + d) (zrange lo hi).
Proof.
  unfold zrange. rewrite map_map. replace (hi + d - (lo + d)) with (hi - lo) by lia.
  apply map_ext; intros; lia.
Qed.

(** ** size_t *)

Lemma size_t_small x : 0 <= x < size_t_max_plus_1 -> size_t x = x.
Proof. intros H; apply Z.mod_small; auto. Qed.

(** ** Blocks *)

Definition well_formed (r : range) : Prop := 0 <= rbegin r < rend r.

Lemma blocks_from_spec n : forall offset bs,
  0 <= offset -> 0 < bs -> offset + Z.of_nat n * bs < size_t_max_plus_1 ->
  exists rs, blocks_from n offset bs = Some (rs, offset + Z.of_nat n * bs) /\
    length rs = n /\ concat (map indices rs) = zrange offset (offset + Z.of_nat n * bs) /\
    Forall (fun r => well_formed r /\ rend r <= offset + Z.of_nat n * bs /\
              range_size r = bs) rs.
Proof.
  induction n as [|n IH]; intros offset bs Ho Hb Hmax.
  - exists []; simpl. repeat split; auto.
    + f_equal; f_equal; lia.
    + symmetry; apply zrange_nil; lia.
  - cbn [blocks_from].
    assert (Hs : size_t (offset + bs) = offset + bs) by (apply size_t_small; lia).
    rewrite Hs. unfold index_range.
    destruct (Z.leb_spec offset (offset + bs)); [|lia].
    destruct (IH (offset + bs) bs) as (rs & H1 & H2 & H3 & H4); [lia|lia|lia|].
    rewrite H1. eexists; split; [|split; [|split]].
    + f_equal; f_equal. lia.
    + simpl; auto.
    + cbn [map concat]. rewrite H3. unfold indices; cbn [rbegin rend].
      rewrite (zrange_app offset (offset + bs) (offset + Z.of_nat (S n) * bs)) by lia.
      f_equal. f_equal; lia.
    + constructor.
      * unfold well_formed; cbn [rbegin rend]; repeat split; try lia.
        unfold range_size; cbn [rbegin rend]. rewrite size_t_small; lia.
      * eapply Forall_impl; [|exact H4]. cbn beta. intros r (A & B & C).
        repeat split; auto; try apply A; lia.
Qed.

(** Number of blocks for [n] threads and [size] elements: one per [size / n] elements. *)
Definition nr_blocks (n size : Z) : Z :=
  let q := size / n in
  if 0 <? q then size / q + (if 0 <? size mod q then 1 else 0)
  else if 0 <? size then 1 else 0.

Lemma index_ranges_1d_spec n size : 1 <= n -> 0 <= size < size_t_max_plus_1 ->
  exists rs, index_ranges_1d n size = Some rs /\
    Z.of_nat (length rs) = nr_blocks n size /\
    concat (map indices rs) = zrange 0 size /\
    Forall (fun r => well_formed r /\ rend r <= size) rs.
Proof.
  intros Hn Hs. unfold index_ranges_1d, nr_blocks.
  destruct (Z.eqb_spec n 0); [lia|].
  set (q := size / n). assert (Hq0 : 0 <= q) by (apply Z.div_pos; lia).
  destruct (Z.ltb_spec 0 q) as [Hq|Hq].
  - set (k := size / q).
    assert (Hk : 0 <= k) by (apply Z.div_pos; lia).
    pose proof (Z.mul_div_le size q Hq) as Hkq. fold k in Hkq.
    destruct (blocks_from_spec (Z.to_nat k) 0 q) as (rs & H1 & H2 & H3 & H4); try lia.
    rewrite H1. rewrite !Z2Nat.id in * by auto.
    rewrite (size_t_small (k * q)) by lia.
    rewrite (size_t_small (size - k * q)) by lia.
    assert (Hmod : size mod q = size - k * q).
    { rewrite Z.mod_eq by lia. fold k; lia. }
    rewrite Hmod.
    destruct (Z.ltb_spec 0 (size - k * q)) as [Hr|Hr].
    + unfold index_range. rewrite size_t_small by lia.
      destruct (Z.leb_spec (0 + k * q) (0 + k * q + (size - k * q))); [|lia].
      eexists; split; [reflexivity|]. split; [|split].
      * rewrite app_length; simpl. lia.
      * rewrite map_app, concat_app, H3. simpl. rewrite app_nil_r.
        unfold indices; cbn [rbegin rend].
        rewrite (zrange_app 0 (0 + k * q) size) by lia.
        f_equal; f_equal; lia.
      * apply Forall_app; split.
        -- eapply Forall_impl; [|exact H4]; cbn beta. intros r (A & B & C); split; auto; lia.
        -- constructor; [|constructor]. unfold well_formed; cbn [rbegin rend]; lia.
    + eexists; split; [reflexivity|]. split; [|split].
      * lia.
      * rewrite H3. f_equal; lia.
      * eapply Forall_impl; [|exact H4]; cbn beta. intros r (A & B & C); split; auto; lia.
  - cbn [Z.to_nat blocks_from].
    rewrite (size_t_small (0 * q)) by lia.
    rewrite (size_t_small (size - 0 * q)) by lia.
    replace (size - 0 * q) with size by lia.
    destruct (Z.ltb_spec 0 size) as [Hp|Hp].
    + unfold index_range. rewrite size_t_small by lia.
      destruct (Z.leb_spec 0 (0 + size)); [|lia].
      eexists; split; [reflexivity|]. split; [|split].
      * reflexivity.
      * simpl. rewrite app_nil_r. reflexivity.
      * constructor; [|constructor]. unfold well_formed; cbn [rbegin rend]; lia.
    + eexists; split; [reflexivity|]. split; [|split].
      * reflexivity.
      * simpl. symmetry; apply zrange_nil; lia.
      * constructor.
Qed.

Lemma index_ranges_2d_1d n s1 s2 : 1 <= n -> 0 <= s1 < size_t_max_plus_1 -> 0 <= s2 ->
  exists rs, index_ranges_1d n s1 = Some rs /\
    index_ranges_2d n s1 s2 =
      Some (map (fun r => (r, {| rbegin := 0; rend := s2 |})) rs).
Proof.
  intros Hn Hs Hs2.
  destruct (index_ranges_1d_spec n s1 Hn Hs) as (rs & H1 & _).
  exists rs; split; auto.
  unfold index_ranges_2d, index_ranges_1d in *.
  destruct (n =? 0); [discriminate|].
  unfold index_range at 1. destruct (Z.leb_spec 0 s2); [|lia].
  destruct (blocks_from _ 0 (s1 / n)) as [[rows off]|]; [|discriminate].
  destruct (0 <? _); [destruct (index_range _ _)|]; inversion H1; subst; auto.
Qed.

Lemma flat_map_concat_map' {A B} (f : A -> list B) ls :
  flat_map f (concat ls) = concat (map (flat_map f) ls).
Proof.
  induction ls as [|l ls IH]; simpl; auto. rewrite flat_map_app, IH; auto.
Qed.

Lemma index_ranges_2d_spec n s1 s2 : 1 <= n -> 0 <= s1 < size_t_max_plus_1 -> 0 <= s2 ->
  exists bs, index_ranges_2d n s1 s2 = Some bs /\
    Z.of_nat (length bs) = nr_blocks n s1 /\
    concat (map cells2 bs) = raster_cells s1 s2 /\
    Forall (fun b => well_formed (fst b) /\ rend (fst b) <= s1 /\
                     snd b = {| rbegin := 0; rend := s2 |}) bs.
Proof.
  intros Hn Hs Hs2.
  destruct (index_ranges_2d_1d n s1 s2 Hn Hs Hs2) as (rs & H1 & H2).
  destruct (index_ranges_1d_spec n s1 Hn Hs) as (rs' & H1' & Hlen & Hcat & Hall).
  rewrite H1 in H1'; inversion H1'; subst rs'; clear H1'.
  eexists; split; [exact H2|]. split; [|split].
  - rewrite map_length; auto.
  - unfold raster_cells. rewrite <- Hcat, flat_map_concat_map', !map_map. reflexivity.
  - apply Forall_map. eapply Forall_impl; [|exact Hall]; cbn beta. intros r [A B]; auto.
Qed.

(** ** Bounds on the number of blocks *)

Lemma nr_blocks_bounds n size : 1 <= n -> n <= size ->
  n <= nr_blocks n size <= 2 * n - 1.
Proof.
  intros Hn Hs; unfold nr_blocks.
  set (q := size / n).
  assert (Hq : 1 <= q).
  { unfold q. apply Z.div_le_lower_bound; lia. }
  destruct (Z.ltb_spec 0 q); [|lia].
  assert (H1 : size = n * q + size mod n) by (apply Z.div_mod; lia).
  assert (H2 : 0 <= size mod n < n) by (apply Z.mod_pos_bound; lia).
  set (r := size mod n) in *.
  assert (H3 : size / q = n + r / q).
  { rewrite H1. rewrite Z.add_comm, Z.div_add by lia. lia. }
  assert (H4 : size mod q = r mod q).
  { rewrite H1. rewrite Z.add_comm, Z.mod_add by lia. auto. }
  rewrite H3, H4.
  assert (H5 : r = q * (r / q) + r mod q) by (apply Z.div_mod; lia).
  assert (H6 : 0 <= r mod q < q) by (apply Z.mod_pos_bound; lia).
  assert (H7 : 0 <= r / q) by (apply Z.div_pos; lia).
  destruct (Z.ltb_spec 0 (r mod q)); nia.
Qed.

Lemma nr_blocks_documented n size : 1 <= n -> n * (n - 1) <= size -> n <= size ->
  nr_blocks n size <= n + 1.
Proof.
  intros Hn Hs Hns; unfold nr_blocks.
  set (q := size / n).
  assert (Hq : 1 <= q) by (unfold q; apply Z.div_le_lower_bound; lia).
  assert (Hqn : n - 1 <= q) by (unfold q; apply Z.div_le_lower_bound; lia).
  destruct (Z.ltb_spec 0 q); [|lia].
  assert (H1 : size = n * q + size mod n) by (apply Z.div_mod; lia).
  assert (H2 : 0 <= size mod n < n) by (apply Z.mod_pos_bound; lia).
  set (r := size mod n) in *.
  assert (H3 : size / q = n + r / q).
  { rewrite H1. rewrite Z.add_comm, Z.div_add by lia. lia. }
  assert (H4 : size mod q = r mod q).
  { rewrite H1. rewrite Z.add_comm, Z.mod_add by lia. auto. }
  rewrite H3, H4.
  assert (H5 : r = q * (r / q) + r mod q) by (apply Z.div_mod; lia).
  assert (H6 : 0 <= r mod q < q) by (apply Z.mod_pos_bound; lia).
  assert (H7 : 0 <= r / q) by (apply Z.div_pos; lia).
  destruct (Z.ltb_spec 0 (r mod q)); nia.
Qed.

Lemma nr_blocks_small n size : 1 <= n -> 0 < size < n -> nr_blocks n size = 1.
Proof.
  intros Hn Hs; unfold nr_blocks. rewrite Z.div_small by lia. simpl.
  destruct (Z.ltb_spec 0 size); lia.
Qed.

Lemma nr_blocks_zero n : 1 <= n -> nr_blocks n 0 = 0.
Proof. intros Hn; unfold nr_blocks. rewrite Z.div_0_l by lia. reflexivity. Qed.

Lemma nr_blocks_worst n : 2 <= n -> nr_blocks n (2 * n - 1) = 2 * n - 1.
Proof.
  intros Hn; unfold nr_blocks.
  assert (H : (2 * n - 1) / n = 1).
  { symmetry; apply Z.div_unique with (n - 1); lia. }
  rewrite H. simpl. rewrite Z.div_1_r, Z.mod_1_r. simpl. lia.
Qed.

(** ** Queries *)

Lemma range_empty_spec r : rbegin r <= rend r ->
  range_empty r = true <-> indices r = [].
Proof.
  intros H; unfold range_empty, indices. rewrite Z.eqb_eq. split.
  - intros E; apply zrange_nil; lia.
  - intros E. destruct (Z.eq_dec (rbegin r) (rend r)); auto.
    rewrite zrange_cons in E by lia. discriminate.
Qed.

Lemma range_size_spec r : 0 <= rbegin r <= rend r -> rend r < size_t_max_plus_1 ->
  range_size r = Z.of_nat (length (indices r)).
Proof.
  intros H1 H2; unfold range_size, indices. rewrite length_zrange, size_t_small by lia. lia.
Qed.

Definition valid_range (r : range) : Prop :=
  0 <= rbegin r <= rend r /\ rend r < size_t_max_plus_1.

Lemma length_flat_map_const {A B} (f : A -> list B) l n :
  (forall a, length (f a) = n) -> length (flat_map f l) = (length l * n)%nat.
Proof.
  intros H; induction l as [|a l IH]; simpl; auto. rewrite app_length, H, IH; auto.
Qed.

Lemma length_cells rs :
  length (cells rs) = fold_right (fun r n => (length (indices r) * n)%nat) 1%nat rs.
Proof.
  induction rs as [|r rs IH]; auto. cbn [cells fold_right].
  rewrite length_flat_map_const with (n := length (cells rs)).
  - rewrite IH; auto.
  - intros a; apply map_length.
Qed.

Lemma ranges_empty_spec rs : Forall valid_range rs ->
  ranges_empty rs = true <-> cells rs = [].
Proof.
  intros H; rewrite <- length_zero_iff_nil, length_cells.
  induction H as [|r rs Hr Hrs IH]; simpl.
  - split; discriminate.
  - rewrite orb_true_iff, (range_empty_spec r) by apply Hr.
    rewrite Nat.eq_mul_0, <- IH, length_zero_iff_nil. tauto.
Qed.

Lemma ranges_size_acc rs : Forall valid_range rs -> forall acc,
  fold_left (fun result r => size_t (result * range_size r)) rs (size_t acc) =
  size_t (acc * Z.of_nat (length (cells rs))).
Proof.
  induction 1 as [|r rs Hr Hrs IH]; intros acc; cbn [fold_left].
  - simpl. f_equal; lia.
  - assert (E : size_t (size_t acc * range_size r) = size_t (acc * range_size r)).
    { unfold size_t. rewrite Z.mul_mod_idemp_l; auto. discriminate. }
    rewrite E, IH. rewrite !length_cells. cbn [fold_right].
    rewrite range_size_spec by apply Hr. f_equal. lia.
Qed.

Lemma ranges_size_spec rs : Forall valid_range rs ->
  ranges_size rs = size_t (Z.of_nat (length (cells rs))).
Proof.
  intros H; unfold ranges_size. change 1 with (size_t 1) at 1.
  rewrite ranges_size_acc by auto. f_equal; lia.
Qed.

Lemma range_eqb_spec r1 r2 : range_eqb r1 r2 = true <-> r1 = r2.
Proof.
  unfold range_eqb. rewrite andb_true_iff, !Z.eqb_eq.
  destruct r1, r2; simpl; split; [intros [-> ->]; auto|intros E; inversion E; auto].
Qed.

Lemma ranges_eqb_spec rs1 : forall rs2, ranges_eqb rs1 rs2 = true <-> rs1 = rs2.
Proof.
  induction rs1 as [|r1 rs1 IH]; intros [|r2 rs2]; simpl; try (split; [discriminate|discriminate]).
  - tauto.
  - rewrite andb_true_iff, range_eqb_spec, IH. split; [intros [-> ->]; auto|].
    intros E; inversion E; auto.
Qed.
