(** Lemmas about copy and offset. *)
From Coq Require Import ZArith List Bool Lia.
From Verif Require Import LangModel LangProofs ConcModel IndexModel IndexSpec IndexProofs
  LoopModel LoopSpec LoopProofs PolicyModel LocalSpec LocalProofs FrozenProofs IntsModel CoreModel
  CoreSpec CoreProofs CopyModel CopySpec MoveProofs.
Import ListNotations.
Open Scope Z_scope.

(** ** Consecutive ranges *)

Fixpoint chain (lo : Z) (rs : list range) (hi : Z) : Prop :=
  match rs with
  | [] => lo = hi
  | r :: rs' => rbegin r = lo /\ lo < rend r /\ chain (rend r) rs' hi
  end.

Lemma chain_le rs : forall lo hi, chain lo rs hi -> lo <= hi.
Proof.
  induction rs as [|r rs IH]; cbn; intros lo hi H; [lia|].
  destruct H as (E & L & H). apply IH in H. lia.
Qed.

Lemma zrange_eq_nil lo hi : zrange lo hi = [] -> hi <= lo.
Proof.
  intros H. destruct (Z_lt_dec lo hi); [|lia]. rewrite zrange_cons in H by auto. discriminate.
Qed.

Lemma app_eq_split {X} (l1 : list X) : forall l2 k1 k2, l1 ++ l2 = k1 ++ k2 -> length l1 = length k1 ->
  l1 = k1 /\ l2 = k2.
Proof.
  induction l1 as [|x l1 IH]; intros l2 [|y k1] k2 E L; cbn in *; try discriminate; auto.
  inversion E; subst. destruct (IH l2 k1 k2) as [-> ->]; auto.
Qed.

Lemma ranges_chain rs : forall lo hi, Forall (fun r => well_formed r) rs -> lo <= hi ->
  concat (map indices rs) = zrange lo hi -> chain lo rs hi.
Proof.
  induction rs as [|r rs IH]; intros lo hi Hwf Hle H; cbn in *.
  - symmetry in H; apply zrange_eq_nil in H. lia.
  - inversion Hwf as [|? ? [Hb He] Hwf']; subst.
    change (indices r) with (zrange (rbegin r) (rend r)) in H.
    rewrite (zrange_cons (rbegin r)) in H by lia. cbn in H.
    destruct (Z_lt_dec lo hi) as [Hlt|]; [|rewrite (zrange_nil lo hi) in H by lia; discriminate].
    rewrite (zrange_cons lo) in H by lia. injection H as E1 E2.
    split; [auto|]. split; [lia|].
    assert (Hlen : length (zrange (rbegin r + 1) (rend r) ++ concat (map indices rs)) =
                   length (zrange (lo + 1) hi)) by congruence.
    rewrite app_length, !length_zrange in Hlen.
    assert (rend r <= hi) by lia.
    apply IH; [auto|lia|].
    rewrite (zrange_app (lo + 1) (rend r) hi) in E2 by lia.
    rewrite E1 in E2. apply app_eq_split in E2 as [_ E2]; auto.
Qed.

Lemma index_ranges_chain n size : 1 <= n -> 0 <= size < 2 ^ 64 ->
  exists rs, index_ranges_1d n size = Some rs /\ chain 0 rs size /\
    concat (map indices rs) = zrange 0 size.
Proof.
  intros Hn Hs. destruct (index_ranges_1d_spec n size Hn Hs) as (rs & H1 & _ & H3 & H4).
  exists rs; split; [auto|split; auto]. apply ranges_chain; auto; [|lia].
  eapply Forall_impl; [|exact H4]. intros r [A _]; auto.
Qed.

Lemma chain_concat rs : forall lo hi, chain lo rs hi -> concat (map indices rs) = zrange lo hi.
Proof.
  induction rs as [|r rs IH]; cbn; intros lo hi H.
  - subst. rewrite zrange_nil; auto; lia.
  - destruct H as (E & L & H). rewrite (IH _ _ H). unfold indices. rewrite E.
    apply chain_le in H. symmetry; apply zrange_app; lia.
Qed.

Lemma chain_shift d rs : forall lo hi, chain lo rs hi ->
  chain (d + lo) (map (shift_range d) rs) (d + hi).
Proof.
  induction rs as [|r rs IH]; cbn; intros lo hi H; [lia|].
  destruct H as (E & L & H). split; [lia|]. split; [lia|]. auto.
Qed.

Section Copy.
Context {V : Type}.
Variables (ip : inpol V) (op : outpol V) (src dst : buf).
Implicit Types m : mem V.
Hypothesis Hsrc : src <> dst.
Hypothesis Hap : policy_apart ip op dst.
Hypothesis Hmarks : marks_result op dst.

Lemma does_move m i d x : arg_exists ip src m i -> x d = arg_at ip src m i ->
  does (unwritten op dst) m (move_cell ip op src dst i d) (leave op dst x d) tt.
Proof.
  intros [Hr Hv] Hx. unfold move_cell. eapply does_ifp; [apply does_nd; auto|].
  unfold leave. rewrite Hx. unfold arg_at. destruct (nd_at ip m i).
  - apply does_mark.
  - destruct (mval m src i) as [v|] eqn:E; [|congruence]. cbn. split.
    + unfold unwritten. cbn. destruct (Nat.eqb_spec src dst); [congruence|auto].
    + exists v. split; auto. exists []. split; auto.
Qed.

(** The element that goes to [d]. *)
Definition from_offset m (o : Z) (d : Z) : option V := arg_at ip src m (d - o).

Lemma does_copy_1d m r pos o : rbegin r <= rend r -> o = pos - rbegin r ->
  (forall i, In i (indices r) -> arg_exists ip src m i) ->
  does (unwritten op dst) m (copy_1d ip op src dst r pos)
    (flat_map (leave op dst (from_offset m o)) (zrange pos (pos + (rend r - rbegin r)))) tt.
Proof.
  intros Hr -> Hex. unfold copy_1d.
  eapply does_seq_skip.
  replace (zrange pos (pos + (rend r - rbegin r))) with (map (fun i => i + (pos - rbegin r)) (indices r)).
  2: { unfold indices. rewrite <- zrange_shift. f_equal; lia. }
  rewrite flat_map_concat_map, map_map, <- flat_map_concat_map.
  replace pos with (rbegin r + (pos - rbegin r)) at 1 by lia.
  apply (does_fold_range _ m (rbegin r) (rend r) _ (fun j => j + (pos - rbegin r))
           (fun j => leave op dst (from_offset m (pos - rbegin r)) (j + (pos - rbegin r)))); auto.
  intros j Hj. rewrite <- (app_nil_r (leave _ _ _ _)). eapply does_seq.
  - apply does_move.
    + apply Hex, in_zrange; auto.
    + unfold from_offset. f_equal; lia.
  - split; auto. lia.
Qed.

Lemma does_blocks m rs : forall lo hi pos o, chain lo rs hi -> 0 <= lo -> hi < 2 ^ 64 -> o = pos - lo ->
  (forall i, lo <= i < hi -> arg_exists ip src m i) ->
  exists dss,
    Forall2 (fun p ds => does (unwritten op dst) m p (flat_map (leave op dst (from_offset m o)) ds) tt)
      (map (fun rp => copy_1d ip op src dst (fst rp) (snd rp)) (combine rs (positions pos rs))) dss /\
    concat dss = zrange pos (pos + (hi - lo)).
Proof.
  induction rs as [|r rs IH]; cbn [positions combine map]; intros lo hi pos o H Hlo Hhi -> Hex.
  - cbn in H. subst. exists []. split; [constructor|]. cbn. rewrite zrange_nil; auto; lia.
  - destruct H as (E & L & H). pose proof (chain_le _ _ _ H) as Hle.
    destruct (IH (rend r) hi (pos + range_size r) (pos - lo)) as (dss & H1 & H2); auto; try lia.
    { unfold range_size. rewrite size_t_small by (unfold size_t_max_plus_1; lia). lia. }
    { intros i Hi. apply Hex. lia. }
    assert (Es : range_size r = rend r - rbegin r).
    { unfold range_size. apply size_t_small. unfold size_t_max_plus_1; lia. }
    exists (zrange pos (pos + (rend r - rbegin r)) :: dss). split.
    + constructor; auto. cbn [fst snd]. apply does_copy_1d; try lia.
      intros i Hi. apply in_zrange in Hi. apply Hex. lia.
    + cbn [concat]. rewrite H2, Es, <- zrange_app by lia. f_equal. lia.
Qed.

Theorem copy_computes m n r pos :
  0 <= rbegin r <= rend r -> rend r < 2 ^ 64 ->
  (forall i, In i (indices r) ->
     arg_exists ip src m i /\ result_exists op dst m (i - rbegin r + pos)) ->
  exists m1, run (copy_sequential ip op src dst n n r pos) m = Some (tt, m1) /\
    (forall d, In d (zrange pos (pos + (rend r - rbegin r))) ->
       holds op dst m m1 d (value_or_no_data (arg_at ip src m (d - pos + rbegin r)))) /\
    changes_only op dst (zrange pos (pos + (rend r - rbegin r))) m m1 /\
    (rbegin r < rend r -> forall nr_threads, 1 <= nr_threads ->
       exists tasks, copy_parallel ip op src dst nr_threads n n r pos = Some tasks /\
         always_yields tasks m m1).
Proof.
  intros Hr He Hex.
  set (ds := zrange pos (pos + (rend r - rbegin r))).
  set (x := from_offset m (pos - rbegin r)).
  assert (Hres : forall d, In d ds -> result_exists op dst m d).
  { intros d Hd. apply in_zrange in Hd.
    destruct (Hex (d - pos + rbegin r)) as [_ H]; [apply in_zrange; lia|].
    replace (d - pos + rbegin r - rbegin r + pos) with d in H by lia. auto. }
  exists (writes (flat_map (leave op dst x) ds) m).
  destruct (writes_moves op dst x Hmarks ds m Hres) as [W1 W2].
  split; [|split; [|split; [auto|]]].
  - unfold copy_sequential. rewrite Z.eqb_refl. apply moves_sequential; auto.
    apply does_copy_1d; auto; [lia|]. intros i Hi. apply Hex; auto.
  - intros d Hd. specialize (W1 d Hd). unfold x, from_offset in W1.
    replace (d - (pos - rbegin r)) with (d - pos + rbegin r) in W1 by lia. auto.
  - intros Hne nr Hnr.
    assert (Es : range_size r = rend r - rbegin r).
    { unfold range_size. apply size_t_small. unfold size_t_max_plus_1; lia. }
    destruct (index_ranges_chain nr (rend r - rbegin r) Hnr) as (rs & H1 & H2 & _); [lia|].
    pose proof (chain_shift (rbegin r) rs 0 _ H2) as H3.
    replace (rbegin r + 0) with (rbegin r) in H3 by lia.
    replace (rbegin r + (rend r - rbegin r)) with (rend r) in H3 by lia.
    destruct (does_blocks m (map (shift_range (rbegin r)) rs) _ _ pos (pos - rbegin r) H3)
      as (dss & D1 & D2); auto; try lia.
    { intros i Hi. apply Hex, in_zrange; auto. }
    unfold copy_parallel. rewrite Z.eqb_refl, Es, H1. cbn [negb].
    destruct rs as [|r0 rs0]; [cbn in H2; lia|].
    eexists; split; [reflexivity|].
    fold ds in D2. rewrite <- D2. apply (moves_parallel op dst x Hmarks); auto.
    + apply NoDup_concat_disjoint. rewrite D2. apply NoDup_zrange.
    + rewrite D2; auto.
Qed.
End Copy.
