(** Lemmas about offset. *)
From Coq Require Import ZArith List Bool Lia.
From Verif Require Import LangModel LangProofs ConcModel IndexModel IndexSpec IndexProofs
  LoopModel LoopSpec LoopProofs PolicyModel LocalSpec LocalProofs FrozenProofs IntsModel ArithProofs
  CoreModel CoreSpec CoreProofs CopyModel CopySpec MoveProofs CopyProofs.
Import ListNotations.
Open Scope Z_scope.

(** ** The ranges *)

Lemma filter_zrange lo' hi' : forall k lo hi, k = Z.to_nat (hi - lo) ->
  filter (fun i => (lo' <=? i) && (i <? hi')) (zrange lo hi) =
  zrange (Z.max lo lo') (Z.min hi hi').
Proof.
  induction k as [|k IH]; intros lo hi E.
  - rewrite !zrange_nil by lia. reflexivity.
  - rewrite (zrange_cons lo hi) by lia. cbn [filter]. rewrite (IH (lo + 1) hi) by lia.
    destruct (Z.leb_spec lo' lo), (Z.ltb_spec lo hi'); cbn [andb].
    + rewrite (zrange_cons (Z.max lo lo')) by lia. f_equal; [lia|]. f_equal; lia.
    + rewrite !zrange_nil by lia. reflexivity.
    + f_equal; lia.
    + rewrite !zrange_nil by lia. reflexivity.
Qed.

Definition stays (n d i : Z) : bool := (0 <=? i + d) && (i + d <? n).
Definition comes (n d i : Z) : bool := (0 <=? i - d) && (i - d <? n).

Lemma filter_stays n d lo hi :
  filter (stays n d) (zrange lo hi) = zrange (Z.max lo (- d)) (Z.min hi (n - d)).
Proof.
  rewrite <- (filter_zrange (- d) (n - d) _ lo hi eq_refl).
  apply filter_ext. intros i. unfold stays.
  destruct (Z.leb_spec 0 (i + d)), (Z.leb_spec (- d) i), (Z.ltb_spec (i + d) n),
    (Z.ltb_spec i (n - d)); auto; lia.
Qed.

Lemma zrange_same lo hi lo' hi' : (lo = lo' /\ hi = hi') \/ (hi <= lo /\ hi' <= lo') ->
  zrange lo hi = zrange lo' hi'.
Proof. intros [[-> ->]|[H1 H2]]; auto. rewrite !zrange_nil by lia; auto. Qed.

(** The part of [0 .. n-1] that is not reached. *)
Lemma filter_comes n d : 0 <= n ->
  filter (fun i => negb (comes n d i)) (zrange 0 n) =
  if d <=? 0 then zrange (Z.max 0 (n + d)) n else zrange 0 (Z.min d n).
Proof.
  intros Hn. destruct (Z.leb_spec d 0).
  - transitivity (filter (fun i => (Z.max 0 (n + d) <=? i) && (i <? n)) (zrange 0 n)).
    + apply filter_ext_in. intros i Hi. apply in_zrange in Hi. unfold comes.
      destruct (Z.leb_spec 0 (i - d)), (Z.ltb_spec (i - d) n), (Z.leb_spec (Z.max 0 (n + d)) i),
        (Z.ltb_spec i n); cbn; auto; lia.
    + rewrite (filter_zrange _ _ _ 0 n eq_refl). apply zrange_same. lia.
  - transitivity (filter (fun i => (0 <=? i) && (i <? Z.min d n)) (zrange 0 n)).
    + apply filter_ext_in. intros i Hi. apply in_zrange in Hi. unfold comes.
      destruct (Z.leb_spec 0 (i - d)), (Z.ltb_spec (i - d) n), (Z.leb_spec 0 i),
        (Z.ltb_spec i (Z.min d n)); cbn; auto; lia.
    + rewrite (filter_zrange _ _ _ 0 n eq_refl). apply zrange_same. lia.
Qed.

Lemma signed_bounds T : signed T = true ->
  imin T = - imax T - 1 /\ 0 < imax T < 2 ^ 63.
Proof. destruct T; cbn; intros; try discriminate; lia. Qed.

Lemma arith_fits T z : signed T = true -> imin T <= z <= imax T -> arith false T z = Some z.
Proof.
  intros Hs Hz. unfold arith. rewrite Hs.
  destruct (Z.leb_spec (imin T) z), (Z.leb_spec z (imax T)); cbn; auto; lia.
Qed.

Lemma range_to_copy_spec T r n d : representable T n d ->
  0 <= rbegin r < rend r -> rend r <= n ->
  exists r' o, range_to_copy T r n d = Some (r', o) /\
    indices r' = filter (stays n d) (indices r) /\
    (forall i, In i (indices r') -> o = d) /\ rbegin r' <= rend r'.
Proof.
  intros (Hs & Hn & Hd) Hr Hrn. destruct (signed_bounds T Hs) as [Hmin Hmax].
  assert (Hconv : conv T n = n) by (apply conv_id; red; lia).
  unfold range_to_copy, indices. rewrite filter_stays.
  destruct (Z.leb_spec d 0) as [Hneg|Hpos].
  - unfold clamp_negative. rewrite Hconv, arith_fits by (auto; lia). cbn [option_map].
    rewrite (arith_fits T (Z.abs _)) by (auto; lia).
    rewrite size_t_small by (unfold size_t_max_plus_1; lia).
    set (first := Z.min (Z.max (Z.abs (Z.max d (- n))) (rbegin r)) (rend r)).
    assert (H1 : rbegin r <= first <= rend r) by (unfold first; lia).
    destruct (Z.leb_spec (rbegin r) first); [|lia].
    destruct (Z.leb_spec first (rend r)); [|lia].
    destruct (Z.leb_spec (rbegin r) (rend r)); [|lia]. cbn [andb].
    unfold index_range. destruct (Z.leb_spec first (rend r)); [|lia]. cbn [option_map].
    eexists _, _. split; [reflexivity|]. cbn [rbegin rend]. split; [|split; [|auto]].
    + apply zrange_same. unfold first. lia.
    + intros i Hi. apply in_zrange in Hi. unfold first in Hi. lia.
  - unfold clamp_positive. rewrite Hconv.
    rewrite (arith_fits T (Z.abs _)) by (auto; lia).
    rewrite (size_t_small (Z.abs _)) by (unfold size_t_max_plus_1; lia).
    rewrite size_t_small by (unfold size_t_max_plus_1; lia).
    set (last := Z.max (rbegin r) (Z.min (rend r) (n - Z.abs (Z.min d n)))).
    assert (H1 : rbegin r <= last <= rend r) by (unfold last; lia).
    destruct (Z.ltb_spec (rbegin r) (rend r)); [|lia].
    destruct (Z.leb_spec last (rend r)); [|lia]. cbn [andb].
    unfold index_range. destruct (Z.leb_spec (rbegin r) last); [|lia]. cbn [option_map].
    eexists _, _. split; [reflexivity|]. cbn [rbegin rend]. split; [|split; [|lia]].
    + apply zrange_same. unfold last. lia.
    + intros i Hi. apply in_zrange in Hi. unfold last in Hi. lia.
Qed.

Lemma range_to_initialize_spec T n d : representable T n d ->
  exists r, range_to_initialize T n d = Some r /\
    indices r = filter (fun i => negb (comes n d i)) (zrange 0 n).
Proof.
  intros (Hs & Hn & Hd). destruct (signed_bounds T Hs) as [Hmin Hmax].
  assert (Hconv : conv T n = n) by (apply conv_id; red; lia).
  unfold range_to_initialize, indices. rewrite filter_comes by lia.
  destruct (Z.leb_spec d 0) as [Hneg|Hpos].
  - unfold clamp_negative. rewrite Hconv, arith_fits by (auto; lia). cbn [option_map].
    rewrite size_t_small by (unfold size_t_max_plus_1; lia).
    unfold index_range. destruct (Z.leb_spec (n + Z.max d (- n)) n); [|lia].
    eexists; split; [reflexivity|]. cbn [rbegin rend]. apply zrange_same. lia.
  - unfold clamp_positive. rewrite Hconv.
    rewrite size_t_small by (unfold size_t_max_plus_1; lia).
    unfold index_range. destruct (Z.leb_spec 0 (Z.min d n)); [|lia].
    eexists; split; [reflexivity|]. reflexivity.
Qed.

(** ** Copying tasks and an initialising task *)
Section Tasks.
Context {V : Type}.
Variables (op : outpol V) (rb : buf) (x : Z -> option V).
Hypothesis Hmarks : marks_result op rb.
Implicit Types m : mem V.

Lemma offset_tasks {R} m (g : R -> range) (f : R -> list Z) (copyp : R -> prog V unit)
    (rs : list R) (key : Z -> Z) (wholep p0 : prog V unit) (ds0 l : list Z) :
  (forall r, In r rs -> does (unwritten op rb) m (copyp r) (flat_map (leave op rb x) (f r)) tt) ->
  does (unwritten op rb) m p0 (flat_map (leave op rb x) ds0) tt ->
  does (unwritten op rb) m wholep (flat_map (leave op rb x) (concat (map f rs))) tt ->
  NoDup (concat (map (fun r => indices (g r)) rs)) ->
  (forall r e, In r rs -> In e (f r) -> In (key e) (indices (g r))) ->
  (forall e, In e (concat (map f rs)) -> In e ds0 -> False) ->
  (forall e, In e l <-> In e (concat (map f rs) ++ ds0)) ->
  (forall e, In e l -> result_exists op rb m e) ->
  exists m1, run (seq wholep p0) m = Some (tt, m1) /\
    (forall e, In e l -> holds op rb m m1 e (value_or_no_data (x e))) /\
    changes_only op rb l m m1 /\
    always_yields (map copyp rs ++ [p0]) m m1.
Proof.
  intros Hc H0 Hw Hnd Hkey Hsep Hl Hex.
  set (all := concat (map f rs) ++ ds0) in *.
  assert (Hex' : forall e, In e all -> result_exists op rb m e) by (intros e He; apply Hex, Hl; auto).
  exists (writes (flat_map (leave op rb x) all) m).
  destruct (writes_moves op rb x Hmarks all m Hex') as [W1 [W2 W3]].
  split; [|split; [|split]].
  - apply moves_sequential; auto. unfold all. rewrite flat_map_app.
    eapply does_seq; eauto.
  - intros e He. apply W1, Hl; auto.
  - split.
    + intros b i Hb. apply W2. destruct Hb as [Hb|Hb]; auto. right. rewrite <- Hl; auto.
    + intros b i Hb. apply W3. destruct Hb as [Hb|Hb]; auto. right. rewrite <- Hl; auto.
  - assert (Eall : all = concat (map f rs ++ [ds0])).
    { unfold all. rewrite concat_app. cbn. rewrite app_nil_r. auto. }
    rewrite Eall in *.
    apply (moves_parallel op rb x Hmarks (map copyp rs ++ [p0]) (map f rs ++ [ds0])); auto.
    + apply Forall2_app; [|repeat constructor; auto].
      clear -Hc. induction rs as [|r rs IH]; cbn; constructor.
      * apply Hc; left; auto.
      * apply IH. intros; apply Hc; right; auto.
    + assert (Hlast : forall k ds, nth_error (map f rs ++ [ds0]) k = Some ds ->
        (exists r, nth_error rs k = Some r /\ ds = f r) \/ (k = length rs /\ ds = ds0)).
      { intros k ds Hk. destruct (Nat.lt_ge_cases k (length rs)) as [Hlt|Hge].
        - rewrite nth_error_app1, nth_error_map in Hk by (rewrite map_length; auto).
          destruct (nth_error rs k); [|discriminate]. inversion Hk; eauto.
        - rewrite nth_error_app2, map_length in Hk by (rewrite map_length; auto).
          destruct (k - length rs)%nat eqn:E; cbn in Hk.
          + inversion Hk; subst. right; split; [lia|auto].
          + destruct n; discriminate. }
      assert (Hin : forall k r e, nth_error rs k = Some r -> In e (f r) -> In e (concat (map f rs))).
      { intros k r e Hk He. apply in_concat. exists (f r); split; auto.
        apply in_map. eapply nth_error_In; eauto. }
      intros i j ds ds' e Hij Hi Hj He He'.
      destruct (Hlast i ds Hi) as [(r & Hr & ->)|[Hi' ->]];
      destruct (Hlast j ds' Hj) as [(r' & Hr' & ->)|[Hj' ->]].
      * apply Hkey in He; [|eapply nth_error_In; eauto].
        apply Hkey in He'; [|eapply nth_error_In; eauto].
        apply (NoDup_concat_disjoint _ Hnd i j (indices (g r)) (indices (g r')) (key e)); auto;
          rewrite nth_error_map.
        -- rewrite Hr; reflexivity.
        -- rewrite Hr'; reflexivity.
      * apply (Hsep e); eauto.
      * apply (Hsep e); eauto.
      * lia.
Qed.
End Tasks.

Lemma no_tasks {V} (m : mem V) : always_yields [] m m.
Proof.
  assert (Hx : forall s m', exec s (@nil (prog V unit)) m' = Some ([], m')).
  { induction s as [|j s IH]; intros m'; cbn; auto. unfold step_task. destruct j; cbn; auto. }
  split.
  - intros s ps m' E i j p q l w w' _ Hp. rewrite Hx in E. inversion E; subst. destruct i; discriminate.
  - intros s. exists [], m. split; [apply Hx|]. split; [intros _; apply mem_eq_refl|].
    exists [], [], m. split; auto.
Qed.

Section Offset.
Context {V : Type}.
Variable T : ity.
Variables (ip : inpol V) (op : outpol V) (a rb : buf).
Implicit Types m : mem V.
Hypothesis Ha : a <> rb.
Hypothesis Hap : policy_apart ip op rb.
Hypothesis Hmarks : marks_result op rb.

(** [init] leaves [outside]. *)
Definition leaves_outside (init : initialize (V := V)) (outside : option V) : Prop :=
  forall C m e, does C m (init e)
    (match outside with Some v => [WV rb e v] | None => mark_at op e end) tt.

Lemma mark_outside : leaves_outside (mark_cell op) None.
Proof. intros C m e. apply does_mark. Qed.

Lemma fill_outside v : leaves_outside (fill_cell rb v) (Some v).
Proof. intros C m e. cbn. exists []; auto. Qed.

Variables (init : initialize (V := V)) (outside : option V).
Hypothesis Hinit : leaves_outside init outside.

Lemma does_init m x e : x e = outside ->
  does (unwritten op rb) m (init e) (leave op rb x e) tt.
Proof. intros E. unfold leave. rewrite E. apply Hinit. Qed.

(** 1D *)
Definition value_1d m n d (e : Z) : option V :=
  if comes n d e then arg_at ip a m (e - d) else outside.

Definition dest_1d n d (r : range) : list Z := map (fun i => i + d) (filter (stays n d) (indices r)).

Lemma does_offset_copy_1d m n d r : representable T n d ->
  0 <= rbegin r < rend r -> rend r <= n ->
  (forall i, 0 <= i < n -> arg_exists ip a m i) ->
  does (unwritten op rb) m (offset_copy_1d T ip op a rb n d r)
    (flat_map (leave op rb (value_1d m n d)) (dest_1d n d r)) tt.
Proof.
  intros Hrep Hr Hrn Hex.
  destruct (range_to_copy_spec T r n d Hrep Hr Hrn) as (r' & o & E & Hi & Ho & _).
  unfold offset_copy_1d, dest_1d. rewrite E, <- Hi.
  rewrite flat_map_concat_map, map_map, <- flat_map_concat_map.
  apply does_loop1. intros i Hin. rewrite (Ho i Hin).
  assert (Hst : 0 <= i < n /\ 0 <= i + d < n).
  { rewrite Hi, filter_In in Hin. destruct Hin as [H1 H2]. apply in_zrange in H1.
    unfold stays in H2. apply andb_true_iff in H2 as [H2 H3].
    apply Z.leb_le in H2. apply Z.ltb_lt in H3. lia. }
  apply does_move; auto; [apply Hex; lia|].
  unfold value_1d, comes. replace (i + d - d) with i by lia.
  destruct (Z.leb_spec 0 i), (Z.ltb_spec i n); auto; lia.
Qed.

Lemma does_offset_init_1d m n d : representable T n d ->
  does (unwritten op rb) m (offset_init_1d T init n d)
    (flat_map (leave op rb (value_1d m n d)) (filter (fun i => negb (comes n d i)) (zrange 0 n))) tt.
Proof.
  intros Hrep. destruct (range_to_initialize_spec T n d Hrep) as (r & E & Hi).
  unfold offset_init_1d. rewrite E, <- Hi. apply does_loop1.
  intros i Hin. rewrite Hi, filter_In in Hin. destruct Hin as [_ Hin].
  apply does_init. unfold value_1d. destruct (comes n d i); auto; discriminate.
Qed.

Lemma filter_concat {X} (p : X -> bool) ls : filter p (concat ls) = concat (map (filter p) ls).
Proof. induction ls as [|l ls IH]; cbn; auto. rewrite filter_app, IH; auto. Qed.

Lemma dest_1d_concat n d rs whole : concat (map indices rs) = indices whole ->
  concat (map (dest_1d n d) rs) = dest_1d n d whole.
Proof.
  intros H. unfold dest_1d. rewrite <- H, filter_concat, concat_map, !map_map. reflexivity.
Qed.

Lemma value_1d_spec m n d e :
  value_or_no_data (value_1d m n d e) =
  shifted n d (fun i => value_or_no_data (arg_at ip a m i)) (value_or_no_data outside) e.
Proof. unfold value_1d, shifted, comes. destruct (_ && _); auto. Qed.

Lemma in_dest_1d n d e : In e (dest_1d n d (whole1 n)) <-> 0 <= e < n /\ comes n d e = true.
Proof.
  unfold dest_1d. rewrite in_map_iff. unfold comes. rewrite andb_true_iff, Z.leb_le, Z.ltb_lt.
  split.
  - intros (i & <- & Hi). rewrite filter_In in Hi. destruct Hi as [H1 H2]. apply in_zrange in H1.
    unfold stays in H2. rewrite andb_true_iff, Z.leb_le, Z.ltb_lt in H2. cbn in H1. lia.
  - intros [H1 H2]. exists (e - d). split; [lia|]. rewrite filter_In. split.
    + apply in_zrange. cbn. lia.
    + unfold stays. rewrite andb_true_iff, Z.leb_le, Z.ltb_lt. lia.
Qed.

Theorem offset_1d_computes m n d : representable T n d ->
  (forall i, 0 <= i < n -> arg_exists ip a m i /\ result_exists op rb m i) ->
  computes_on (offset_sequential_1d T ip op a rb init n d)
    (fun threads => offset_parallel_1d T ip op a rb threads init n d) op rb (zrange 0 n)
    (shifted n d (fun i => value_or_no_data (arg_at ip a m i)) (value_or_no_data outside)) m.
Proof.
  intros Hrep Hex. pose proof Hrep as (Hs & Hn & Hd). destruct (signed_bounds T Hs) as [_ Hmax].
  unfold computes_on, offset_sequential_1d, offset_parallel_1d.
  destruct (Z.eqb_spec n 0) as [->|Hne].
  { exists m. split; [reflexivity|]. split; [intros i Hi; apply in_zrange in Hi; lia|].
    split; [split; auto|]. intros k Hk. exists []. split; auto. apply no_tasks. }
  assert (Hgen : forall rs, concat (map indices rs) = zrange 0 n ->
    Forall (fun r => well_formed r /\ rend r <= n) rs ->
    exists m1, run (seq (offset_copy_1d T ip op a rb n d (whole1 n)) (offset_init_1d T init n d)) m
        = Some (tt, m1) /\
      (forall e, In e (zrange 0 n) -> holds op rb m m1 e (value_or_no_data (value_1d m n d e))) /\
      changes_only op rb (zrange 0 n) m m1 /\
      always_yields (map (offset_copy_1d T ip op a rb n d) rs ++ [offset_init_1d T init n d]) m m1).
  { intros rs Hrs Hwf.
    assert (Hwf' : forall r, In r rs -> 0 <= rbegin r < rend r /\ rend r <= n).
    { rewrite Forall_forall in Hwf. intros r Hr. destruct (Hwf r Hr) as [W1 W2]. auto. }
    assert (Hdest : concat (map (dest_1d n d) rs) = dest_1d n d (whole1 n)).
    { apply dest_1d_concat. exact Hrs. }
    apply (offset_tasks op rb (value_1d m n d) Hmarks m (fun r => r) (dest_1d n d)
             (offset_copy_1d T ip op a rb n d) rs (fun e => e - d) _ _
             (filter (fun i => negb (comes n d i)) (zrange 0 n))).
    - intros r Hr. apply does_offset_copy_1d; auto; try apply Hwf'; auto. intros; apply Hex; auto.
    - apply does_offset_init_1d; auto.
    - rewrite Hdest. apply does_offset_copy_1d; auto; cbn; try lia. intros; apply Hex; auto.
    - change (NoDup (concat (map indices rs))). rewrite Hrs. apply NoDup_zrange.
    - intros r e _ He. unfold dest_1d in He. apply in_map_iff in He as (i & <- & Hi).
      apply filter_In in Hi as [Hi _]. replace (i + d - d) with i by lia. auto.
    - intros e He1 He2. rewrite Hdest, in_dest_1d in He1. apply filter_In in He2 as [_ He2].
      destruct He1 as [_ He1]. rewrite He1 in He2. discriminate.
    - intros e. rewrite in_app_iff, Hdest, in_dest_1d, filter_In, in_zrange.
      destruct (comes n d e); cbn; intuition congruence.
    - intros e He. apply Hex, in_zrange; auto. }
  destruct (Hgen [whole1 n]) as (m1 & R1 & R2 & R3 & _).
  { cbn. rewrite app_nil_r. reflexivity. }
  { repeat constructor; cbn; lia. }
  exists m1. split; [auto|]. split; [|split; [auto|]].
  - intros i Hi. rewrite <- value_1d_spec. auto.
  - intros k Hk.
    destruct (index_ranges_1d_spec k n Hk) as (rs & H1 & _ & H3 & H4); [unfold size_t_max_plus_1; lia|].
    unfold par1. rewrite H1. cbn [option_map]. eexists; split; [reflexivity|].
    destruct (Hgen rs H3 H4) as (m2 & Q1 & _ & _ & Q4). rewrite R1 in Q1. inversion Q1; subst. auto.
Qed.

(** 2D *)
Definition value_2d m rows cols d1 d2 (e : Z) : option V :=
  if comes rows d1 (e / cols) && comes cols d2 (e mod cols)
  then arg_at ip a m ((e / cols - d1) * cols + (e mod cols - d2)) else outside.

Definition dest_2d rows cols d1 d2 (blk : block2) : list Z :=
  flat_map (fun i => map (fun j => (i + d1) * cols + (j + d2)) (filter (stays cols d2) (zrange 0 cols)))
    (filter (stays rows d1) (indices (fst blk))).

Lemma divmod_cell cols r c : 0 <= c < cols ->
  (r * cols + c) / cols = r /\ (r * cols + c) mod cols = c.
Proof.
  intros H. split.
  - rewrite Z.div_add_l, Z.div_small by lia. lia.
  - rewrite Z.add_comm, Z.mod_add, Z.mod_small by lia. auto.
Qed.

Lemma stays_spec n d i : stays n d i = true <-> 0 <= i + d < n.
Proof. unfold stays. rewrite andb_true_iff, Z.leb_le, Z.ltb_lt. lia. Qed.
Lemma comes_spec n d i : comes n d i = true <-> 0 <= i - d < n.
Proof. unfold comes. rewrite andb_true_iff, Z.leb_le, Z.ltb_lt. lia. Qed.

Lemma does_offset_copy_2d m rows cols d1 d2 blk :
  representable T rows d1 -> representable T cols d2 -> 0 < cols ->
  0 <= rbegin (fst blk) < rend (fst blk) -> rend (fst blk) <= rows -> snd blk = whole1 cols ->
  (forall i, 0 <= i < rows * cols -> arg_exists ip a m i) ->
  does (unwritten op rb) m (offset_copy_2d T ip op a rb rows cols d1 d2 blk)
    (flat_map (leave op rb (value_2d m rows cols d1 d2)) (dest_2d rows cols d1 d2 blk)) tt.
Proof.
  intros Hrep1 Hrep2 Hc Hr Hrn Hs Hex.
  destruct (range_to_copy_spec T (fst blk) rows d1 Hrep1 Hr Hrn) as (r1 & o1 & E1 & Hi1 & Ho1 & _).
  destruct (range_to_copy_spec T (snd blk) cols d2 Hrep2) as (r2 & o2 & E2 & Hi2 & Ho2 & Hle2);
    [rewrite Hs; cbn; lia|rewrite Hs; cbn; lia|].
  unfold offset_copy_2d, dest_2d. rewrite E1, E2, <- Hi1.
  change (zrange 0 cols) with (indices (whole1 cols)). rewrite <- Hs, <- Hi2.
  set (x := value_2d m rows cols d1 d2).
  assert (EF : forall l, flat_map (leave op rb x)
     (flat_map (fun i => map (fun j => (i + d1) * cols + (j + d2)) (indices r2)) l) =
     flat_map (fun i => flat_map (fun j => leave op rb x ((i + d1) * cols + (j + d2))) (indices r2)) l).
  { intros l. induction l as [|i l IH]; cbn; auto. rewrite flat_map_app, IH. f_equal.
    rewrite flat_map_concat_map, map_map, <- flat_map_concat_map. reflexivity. }
  rewrite EF. apply does_loop1. intros i Hin. rewrite (Ho1 i Hin).
  assert (Hst : 0 <= i < rows /\ 0 <= i + d1 < rows).
  { rewrite Hi1, filter_In, stays_spec in Hin. destruct Hin as [H1 H2]. apply in_zrange in H1. lia. }
  destruct (indices r2) as [|j0 js] eqn:Ejs.
  { cbn [flat_map]. unfold indices in Ejs. apply zrange_eq_nil in Ejs.
    unfold fold_range. replace (Z.to_nat (rend r2 - rbegin r2)) with O by lia. cbn. auto. }
  rewrite (Ho2 j0) by (left; auto). rewrite <- Ejs in *.
  eapply does_seq_skip.
  apply (does_fold_range (unwritten op rb) m (rbegin r2) (rend r2)
    (fun _ sd => seq (move_cell ip op a rb (fst sd) (snd sd)) (Ret (fst sd + 1, snd sd + 1)))
    (fun j => (i * cols + j, (i + d1) * cols + (j + d2)))
    (fun j => leave op rb x ((i + d1) * cols + (j + d2)))); auto.
  intros j Hj. rewrite <- (app_nil_r (leave op rb x _)). cbn [fst snd].
  assert (Hst2 : 0 <= j < cols /\ 0 <= j + d2 < cols).
  { apply in_zrange in Hj. fold (indices r2) in Hj. rewrite Hi2, filter_In, stays_spec, Hs in Hj.
    destruct Hj as [H1 H2]. apply in_zrange in H1. cbn in H1. lia. }
  eapply does_seq.
  - apply does_move; auto; [apply Hex; nia|].
    unfold x, value_2d. destruct (divmod_cell cols (i + d1) (j + d2)) as [-> ->]; [lia|].
    replace (i + d1 - d1) with i by lia. replace (j + d2 - d2) with j by lia.
    replace (comes rows d1 (i + d1)) with true by (symmetry; apply comes_spec; lia).
    replace (comes cols d2 (j + d2)) with true by (symmetry; apply comes_spec; lia).
    reflexivity.
  - split; auto. f_equal; lia.
Qed.

Definition init_2d rows cols d1 d2 : list Z :=
  map (linear cols) (cells2 ({| rbegin := 0; rend := 0 |}, whole1 cols)) ++
  flat_map (fun i => map (fun j => i * cols + j) (zrange 0 cols))
    (filter (fun i => negb (comes rows d1 i)) (zrange 0 rows)) ++
  flat_map (fun i => map (fun j => i * cols + j)
    (filter (fun j => negb (comes cols d2 j)) (zrange 0 cols))) (zrange 0 rows).

Lemma block_elements_flat cols r1 r2 :
  block_elements cols (r1, r2) = flat_map (fun i => map (fun j => i * cols + j) (indices r2)) (indices r1).
Proof.
  unfold block_elements, cells2. cbn [fst snd].
  induction (indices r1) as [|i l IH]; cbn; auto. rewrite map_app, IH. f_equal.
  rewrite map_map. reflexivity.
Qed.

Lemma in_flat cols P Q l1 l2 e : 0 < cols -> (forall j, In j l2 -> 0 <= j < cols) ->
  (In e (flat_map (fun i => map (fun j => i * cols + j) (filter Q l2)) (filter P l1)) <->
   In (e / cols) l1 /\ P (e / cols) = true /\ In (e mod cols) l2 /\ Q (e mod cols) = true).
Proof.
  intros Hc Hl2. rewrite in_flat_map. split.
  - intros (i & Hi & He). apply in_map_iff in He as (j & <- & Hj).
    apply filter_In in Hi as [Hi HP]. apply filter_In in Hj as [Hj HQ].
    destruct (divmod_cell cols i j) as [-> ->]; auto.
  - intros (H1 & H2 & H3 & H4). exists (e / cols). rewrite filter_In. split; auto.
    apply in_map_iff. exists (e mod cols). rewrite filter_In. split; auto.
    rewrite (Z.div_mod e cols) at 3 by lia. lia.
Qed.

Lemma filter_true {X} (l : list X) : filter (fun _ => true) l = l.
Proof. induction l; cbn; congruence. Qed.

Lemma in_init_2d rows cols d1 d2 e : 0 < cols ->
  In e (init_2d rows cols d1 d2) <->
  0 <= e / cols < rows /\ 0 <= e mod cols < cols /\
    comes rows d1 (e / cols) && comes cols d2 (e mod cols) = false.
Proof.
  intros Hc. unfold init_2d. cbn [app map cells2 fst snd].
  change (map (linear cols) (cells2 ({| rbegin := 0; rend := 0 |}, whole1 cols))) with (@nil Z).
  cbn [app]. rewrite in_app_iff.
  assert (E0 : flat_map (fun i => map (fun j => i * cols + j) (zrange 0 cols))
     (filter (fun i => negb (comes rows d1 i)) (zrange 0 rows)) =
     flat_map (fun i => map (fun j => i * cols + j) (filter (fun _ => true) (zrange 0 cols)))
     (filter (fun i => negb (comes rows d1 i)) (zrange 0 rows))) by (rewrite filter_true; auto).
  rewrite E0, in_flat by (auto; intros j Hj; apply in_zrange in Hj; auto).
  assert (E : flat_map (fun i => map (fun j => i * cols + j)
     (filter (fun j => negb (comes cols d2 j)) (zrange 0 cols))) (zrange 0 rows) =
     flat_map (fun i => map (fun j => i * cols + j)
     (filter (fun j => negb (comes cols d2 j)) (zrange 0 cols))) (filter (fun _ => true) (zrange 0 rows)))
    by (rewrite filter_true; auto).
  rewrite E, in_flat by (auto; intros j Hj; apply in_zrange in Hj; auto).
  rewrite !in_zrange.
  destruct (comes rows d1 (e / cols)), (comes cols d2 (e mod cols)); cbn; intuition congruence.
Qed.

Lemma does_offset_init_2d m rows cols d1 d2 :
  representable T rows d1 -> representable T cols d2 -> 0 < cols ->
  does (unwritten op rb) m (offset_init_2d T init rows cols d1 d2)
    (flat_map (leave op rb (value_2d m rows cols d1 d2)) (init_2d rows cols d1 d2)) tt.
Proof.
  intros Hrep1 Hrep2 Hc.
  destruct (range_to_initialize_spec T rows d1 Hrep1) as (r1 & E1 & Hi1).
  destruct (range_to_initialize_spec T cols d2 Hrep2) as (r2 & E2 & Hi2).
  assert (Hcell : forall e, In e (init_2d rows cols d1 d2) ->
     does (unwritten op rb) m (init e) (leave op rb (value_2d m rows cols d1 d2) e) tt).
  { intros e He. apply in_init_2d in He; auto. destruct He as (_ & _ & He).
    apply does_init. unfold value_2d. rewrite He. auto. }
  unfold offset_init_2d. rewrite E1, E2.
  assert (EL : init_2d rows cols d1 d2 =
    block_elements cols (r1, whole1 cols) ++ block_elements cols (whole1 rows, r2)).
  { unfold init_2d. change (map (linear cols) (cells2 ({| rbegin := 0; rend := 0 |}, whole1 cols)))
      with (@nil Z). cbn [app]. rewrite !block_elements_flat, Hi1, Hi2. reflexivity. }
  rewrite EL in *. rewrite flat_map_app. eapply does_seq.
  - apply does_loop2. intros e He. apply Hcell. apply in_app_iff; auto.
  - apply does_loop2. intros e He. apply Hcell. apply in_app_iff; auto.
Qed.

Lemma value_2d_spec m rows cols d1 d2 e :
  value_or_no_data (value_2d m rows cols d1 d2 e) =
  shifted_2d rows cols d1 d2 (fun i => value_or_no_data (arg_at ip a m i)) (value_or_no_data outside) e.
Proof.
  unfold value_2d, shifted_2d, comes. rewrite !andb_assoc. destruct (_ && _); auto.
Qed.

Lemma dest_2d_concat rows cols d1 d2 bs whole :
  concat (map (fun b => indices (fst b)) bs) = indices (fst whole) ->
  concat (map (dest_2d rows cols d1 d2) bs) = dest_2d rows cols d1 d2 whole.
Proof.
  intros H. unfold dest_2d. rewrite <- H. clear H.
  induction bs as [|b bs IH]; cbn; auto. rewrite filter_app, flat_map_app, IH. auto.
Qed.

Lemma in_dest_2d rows cols d1 d2 blk e : 0 < cols ->
  In e (dest_2d rows cols d1 d2 blk) <->
  In (e / cols - d1) (indices (fst blk)) /\ 0 <= e / cols < rows /\ 0 <= e mod cols < cols /\
  comes cols d2 (e mod cols) = true.
Proof.
  intros Hc. unfold dest_2d. rewrite in_flat_map. split.
  - intros (i & Hi & He). apply in_map_iff in He as (j & <- & Hj).
    apply filter_In in Hi as [Hi HP]. apply filter_In in Hj as [Hj HQ].
    rewrite stays_spec in HP, HQ. apply in_zrange in Hj.
    destruct (divmod_cell cols (i + d1) (j + d2)) as [-> ->]; auto.
    replace (i + d1 - d1) with i by lia. rewrite comes_spec. repeat split; auto; lia.
  - intros (H1 & H2 & H3 & H4). rewrite comes_spec in H4.
    exists (e / cols - d1). rewrite filter_In, stays_spec. split; [split; [auto|lia]|].
    apply in_map_iff. exists (e mod cols - d2). rewrite filter_In, stays_spec, in_zrange.
    split; [|lia]. pose proof (Z.div_mod e cols). lia.
Qed.

Theorem offset_2d_computes m rows cols d1 d2 :
  representable T rows d1 -> representable T cols d2 ->
  (forall i, 0 <= i < rows * cols -> arg_exists ip a m i /\ result_exists op rb m i) ->
  computes_on (offset_sequential_2d T ip op a rb init rows cols d1 d2)
    (fun threads => offset_parallel_2d T ip op a rb threads init rows cols d1 d2) op rb
    (zrange 0 (rows * cols))
    (shifted_2d rows cols d1 d2 (fun i => value_or_no_data (arg_at ip a m i))
       (value_or_no_data outside)) m.
Proof.
  intros Hrep1 Hrep2 Hex. pose proof Hrep1 as (Hs & Hn1 & Hd1). pose proof Hrep2 as (_ & Hn2 & Hd2).
  destruct (signed_bounds T Hs) as [_ Hmax].
  unfold computes_on, offset_sequential_2d, offset_parallel_2d.
  destruct (Z.eqb_spec (rows * cols) 0) as [->|Hne].
  { exists m. split; [reflexivity|]. split; [intros i Hi; apply in_zrange in Hi; lia|].
    split; [split; auto|]. intros k Hk. exists []. split; auto. apply no_tasks. }
  assert (Hr : 0 < rows) by nia. assert (Hc : 0 < cols) by nia.
  assert (Hcell : forall e, 0 <= e < rows * cols <-> 0 <= e / cols < rows /\ 0 <= e mod cols < cols).
  { intros e. pose proof (Z.mod_pos_bound e cols Hc). pose proof (Z.div_mod e cols). split.
    - intros He. split; [|lia]. split; [apply Z.div_pos; lia|apply Z.div_lt_upper_bound; lia].
    - intros [H1 H2]. nia. }
  assert (Hgen : forall bs, concat (map (fun b => indices (fst b)) bs) = zrange 0 rows ->
    Forall (fun b => well_formed (fst b) /\ rend (fst b) <= rows /\ snd b = whole1 cols) bs ->
    exists m1, run (seq (offset_copy_2d T ip op a rb rows cols d1 d2 (whole2 rows cols))
                      (offset_init_2d T init rows cols d1 d2)) m = Some (tt, m1) /\
      (forall e, In e (zrange 0 (rows * cols)) ->
         holds op rb m m1 e (value_or_no_data (value_2d m rows cols d1 d2 e))) /\
      changes_only op rb (zrange 0 (rows * cols)) m m1 /\
      always_yields (map (offset_copy_2d T ip op a rb rows cols d1 d2) bs ++
                     [offset_init_2d T init rows cols d1 d2]) m m1).
  { intros bs Hbs Hwf. rewrite Forall_forall in Hwf.
    assert (Hdest : concat (map (dest_2d rows cols d1 d2) bs) =
                    dest_2d rows cols d1 d2 (whole2 rows cols)).
    { apply dest_2d_concat. exact Hbs. }
    apply (offset_tasks op rb (value_2d m rows cols d1 d2) Hmarks m (fst : block2 -> range) (dest_2d rows cols d1 d2)
             (offset_copy_2d T ip op a rb rows cols d1 d2) bs (fun e => e / cols - d1) _ _
             (init_2d rows cols d1 d2)).
    - intros b Hb. destruct (Hwf b Hb) as (W1 & W2 & W3).
      apply does_offset_copy_2d; auto. intros; apply Hex; auto.
    - apply does_offset_init_2d; auto.
    - rewrite Hdest. apply does_offset_copy_2d; auto; cbn; try lia. intros; apply Hex; auto.
    - eapply eq_ind_r with (P := fun l => NoDup l); [apply (NoDup_zrange 0 rows)|exact Hbs].
    - intros b e _ He. apply in_dest_2d in He; auto. tauto.
    - intros e He1 He2. rewrite Hdest, in_dest_2d in He1 by auto. apply in_init_2d in He2; auto.
      destruct He1 as (A1 & A2 & A3 & A4), He2 as (_ & _ & B).
      apply in_zrange in A1. cbn in A1.
      rewrite A4, andb_true_r in B. assert (comes rows d1 (e / cols) = true) by (apply comes_spec; lia).
      congruence.
    - intros e. rewrite in_app_iff, Hdest, in_dest_2d, in_init_2d, in_zrange, Hcell by auto.
      cbn [fst whole2]. unfold indices. rewrite in_zrange. cbn [rbegin rend whole1].
      rewrite <- comes_spec.
      destruct (comes rows d1 (e / cols)), (comes cols d2 (e mod cols)); cbn; intuition congruence.
    - intros e He. apply Hex, in_zrange; auto. }
  destruct (Hgen [whole2 rows cols]) as (m1 & R1 & R2 & R3 & _).
  { cbn. rewrite app_nil_r. reflexivity. }
  { repeat constructor; cbn; lia. }
  exists m1. split; [auto|]. split; [|split; [auto|]].
  - intros i Hi. rewrite <- value_2d_spec. auto.
  - intros k Hk.
    destruct (index_ranges_2d_1d k rows cols Hk) as (rs & H1 & H2); [unfold size_t_max_plus_1; lia|lia|].
    destruct (index_ranges_1d_spec k rows Hk) as (rs' & H1' & _ & H3 & H4); [unfold size_t_max_plus_1; lia|].
    rewrite H1 in H1'. inversion H1'; subst rs'.
    unfold par2. rewrite H2. cbn [option_map]. eexists; split; [reflexivity|].
    destruct (Hgen (map (fun r => (r, {| rbegin := 0; rend := cols |})) rs)) as (m2 & Q1 & _ & _ & Q4).
    + rewrite map_map. cbn [fst]. exact H3.
    + apply Forall_forall. intros b Hb. apply in_map_iff in Hb as (r & <- & Hr').
      rewrite Forall_forall in H4. destruct (H4 r Hr') as [W1 W2]. cbn. auto.
    + rewrite R1 in Q1. inversion Q1; subst. auto.
Qed.
End Offset.
