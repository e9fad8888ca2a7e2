(** Lemmas about compress and decompress. *)
From Coq Require Import ZArith List Bool Lia.
From Verif Require Import LangModel LangProofs ConcModel ConcProofs IndexModel IndexSpec IndexProofs
  LoopModel LoopSpec LoopProofs PolicyModel LocalSpec LocalProofs AggSpec FrozenProofs IntsModel
  ArithProofs CoreModel CoreSpec CoreProofs CopyModel CopySpec MoveProofs CopyProofs.
Import ListNotations.
Open Scope Z_scope.

(** ** Footprints of loops with an index that depends on data *)
Section Returns.
Context {V : Type}.

Fixpoint returns {A} (P : A -> Prop) (p : prog V A) : Prop :=
  match p with
  | Ret a => P a
  | RdV _ _ k => forall v, returns P (k v)
  | RdM _ _ k => forall x, returns P (k x)
  | WrV _ _ _ k => returns P k
  | WrM _ _ _ k => returns P k
  | UB => True
  end.

Lemma returns_bind {A B} R W (P : A -> Prop) (Q : B -> Prop) (p : prog V A) (f : A -> prog V B) :
  fits R W p -> returns P p -> (forall a, P a -> fits R W (f a) /\ returns Q (f a)) ->
  fits R W (bind p f) /\ returns Q (bind p f).
Proof.
  induction p as [x|b i k IH|b i v k IH|b i k IH|b i v k IH|]; cbn; intros Hf Hp H; auto.
  - destruct Hf as [F1 F2]. split; [split; auto|]; intros; apply IH; auto.
  - destruct Hf as [F1 F2]. split; [split; auto|]; apply IH; auto.
  - destruct Hf as [F1 F2]. split; [split; auto|]; intros; apply IH; auto.
  - destruct Hf as [F1 F2]. split; [split; auto|]; apply IH; auto.
Qed.

Lemma returns_fold_n {A} R W (body : Z -> A -> prog V A) (I : Z -> A -> Prop) n :
  forall i acc, I i acc ->
  (forall j x, i <= j < i + Z.of_nat n -> I j x ->
     fits R W (body j x) /\ returns (I (j + 1)) (body j x)) ->
  fits R W (fold_n n i body acc) /\ returns (I (i + Z.of_nat n)) (fold_n n i body acc).
Proof.
  induction n as [|n IH]; intros i acc Hi Hb.
  - cbn. rewrite Z.add_0_r. auto.
  - cbn [fold_n]. destruct (Hb i acc) as [F1 F2]; [lia|auto|].
    eapply returns_bind; [exact F1|exact F2|].
    intros x Hx. replace (i + Z.of_nat (S n)) with (i + 1 + Z.of_nat n) by lia.
    apply IH; auto. intros j y Hj; apply Hb; lia.
Qed.

Lemma returns_fold_range {A} R W (body : Z -> A -> prog V A) (I : Z -> A -> Prop) b e acc :
  b <= e -> I b acc ->
  (forall j x, b <= j < e -> I j x -> fits R W (body j x) /\ returns (I (j + 1)) (body j x)) ->
  fits R W (fold_range b e body acc) /\ returns (I e) (fold_range b e body acc).
Proof.
  intros Hbe Hi Hb. unfold fold_range.
  replace e with (b + Z.of_nat (Z.to_nat (e - b))) at 2 by lia.
  apply returns_fold_n; auto. intros j x Hj; apply Hb; lia.
Qed.

Lemma returns_weaken {A} (P Q : A -> Prop) (p : prog V A) : (forall a, P a -> Q a) ->
  returns P p -> returns Q p.
Proof. intros H. induction p; cbn; auto. Qed.

(** ** A loop over rows and columns, with an explicit element index *)

Definition row_loop {A} (cell : Z -> A -> prog V A) (b e : Z) (acc : A) (i : Z) : prog V (A * Z) :=
  fold_range b e (fun _ ti => bind (cell (snd ti) (fst ti)) (fun t => Ret (t, snd ti + 1))) (acc, i).

Lemma run_row_loop {A} (cell : Z -> A -> prog V A) n : forall c acc i m,
  run (fold_n n c (fun _ ti => bind (cell (snd ti) (fst ti)) (fun t => Ret (t, snd ti + 1))) (acc, i)) m =
  match run (fold_n n i cell acc) m with
  | Some (t, m') => Some ((t, i + Z.of_nat n), m')
  | None => None
  end.
Proof.
  induction n as [|n IH]; intros c acc i m.
  - cbn. rewrite Z.add_0_r. auto.
  - cbn [fold_n]. rewrite !run_bind. cbn [fst snd].
    destruct (run (cell i acc) m) as [[t m']|]; auto. cbn [run].
    rewrite IH. replace (i + 1 + Z.of_nat n) with (i + Z.of_nat (S n)) by lia. auto.
Qed.

Definition rows_loop {A} (cell : Z -> A -> prog V A) (cols r0 r1 : Z) (acc : A) : prog V A :=
  fold_range r0 r1 (fun i t =>
    bind (row_loop cell 0 cols t (i * cols + 0)) (fun ti => Ret (fst ti))) acc.

Lemma run_rows_loop {A} (cell : Z -> A -> prog V A) cols r0 r1 acc m : 0 <= cols -> r0 <= r1 ->
  run (rows_loop cell cols r0 r1 acc) m = run (fold_range (r0 * cols) (r1 * cols) cell acc) m.
Proof.
  intros Hc Hr. unfold rows_loop.
  remember (Z.to_nat (r1 - r0)) as n eqn:En. revert r0 acc m Hr En.
  induction n as [|n IH]; intros r0 acc m Hr En.
  - rewrite !fold_range_empty by nia. auto.
  - rewrite (run_fold_range_split (r0 * cols) ((r0 + 1) * cols) (r1 * cols)) by nia.
    unfold fold_range at 1. rewrite <- En. cbn [fold_n]. rewrite !run_bind.
    assert (E : fold_range (r0 * cols) ((r0 + 1) * cols) cell acc =
                fold_n (Z.to_nat (cols - 0)) (r0 * cols) cell acc)
      by (unfold fold_range; do 2 f_equal; lia).
    rewrite E. clear E. unfold row_loop at 1. unfold fold_range at 1. rewrite run_row_loop.
    replace (r0 * cols + 0) with (r0 * cols) by lia.
    destruct (run (fold_n _ (r0 * cols) cell acc) m) as [[t m']|]; auto. cbn [run fst].
    rewrite <- IH by lia. unfold fold_range. replace (Z.to_nat (r1 - (r0 + 1))) with n by lia.
    reflexivity.
Qed.

Lemma rows_loop_fits {A} R W (cell : Z -> A -> prog V A) (I : Z -> A -> Prop) cols r0 r1 acc :
  0 <= cols -> r0 <= r1 -> I (r0 * cols) acc ->
  (forall j x, r0 * cols <= j < r1 * cols -> I j x ->
     fits R W (cell j x) /\ returns (I (j + 1)) (cell j x)) ->
  fits R W (rows_loop cell cols r0 r1 acc) /\ returns (I (r1 * cols)) (rows_loop cell cols r0 r1 acc).
Proof.
  intros Hc Hr Hi Hb. unfold rows_loop.
  apply (returns_fold_range R W _ (fun i t => I (i * cols) t)); auto.
  intros i x Hi' Hx.
  assert (Hrow : fits R W (row_loop cell 0 cols x (i * cols + 0)) /\
    returns (fun ti => I (i * cols + cols) (fst ti) /\ snd ti = i * cols + cols)
      (row_loop cell 0 cols x (i * cols + 0))).
  { unfold row_loop.
    apply (returns_fold_range R W _ (fun j ti => I (i * cols + j) (fst ti) /\ snd ti = i * cols + j)); auto.
    - cbn. rewrite Z.add_0_r. auto.
    - intros j ti Hj [H1 H2]. rewrite H2.
      destruct (Hb (i * cols + j) (fst ti)) as [F1 F2]; [nia|auto|].
      eapply returns_bind; [exact F1|exact F2|].
      intros t Ht. cbn. split; auto. replace (i * cols + (j + 1)) with (i * cols + j + 1) by lia. auto. }
  destruct Hrow as [F1 F2]. eapply returns_bind; [exact F1|exact F2|].
  intros ti [Ht _]. cbn. split; auto. replace ((i + 1) * cols) with (i * cols + cols) by lia. auto.
Qed.
End Returns.

Section Front.
Context {V : Type}.
Implicit Types m : mem V.
Variable rb : buf.

(** Copying elements to lower positions of the array itself. *)
Lemma copy_down m s e t : t <= s <= e ->
  (forall i, t <= i < e -> mval m rb i <> None) ->
  exists m', run (copy_1d SkipNoData DontMarkNoData rb rb {| rbegin := s; rend := e |} t) m = Some (tt, m') /\
    (forall i, t <= i < t + (e - s) -> mval m' rb i = mval m rb (i + (s - t))) /\
    (forall b i, b <> rb \/ ~ t <= i < t + (e - s) -> mval m' b i = mval m b i) /\
    (forall b i, mmsk m' b i = mmsk m b i).
Proof.
  intros Ht Hex. unfold copy_1d. cbn [rbegin rend].
  set (Q := fun (_ : unit) m' => (forall i, t <= i < t + (e - s) -> mval m' rb i = mval m rb (i + (s - t))) /\
    (forall b i, b <> rb \/ ~ t <= i < t + (e - s) -> mval m' b i = mval m b i) /\
    (forall b i, mmsk m' b i = mmsk m b i)).
  assert (W : wp (seq (fold_range s e (fun i d => seq (move_cell SkipNoData DontMarkNoData rb rb i d)
     (Ret (d + 1))) t) skip) m Q).
  { apply wp_seq. eapply wp_fold_range with (I := fun j d m' => d = t + (j - s) /\
      (forall i, t <= i < d -> mval m' rb i = mval m rb (i + (s - t))) /\
      (forall b i, b <> rb \/ ~ t <= i < d -> mval m' b i = mval m b i) /\
      (forall b i, mmsk m' b i = mmsk m b i)).
    - lia.
    - split; [lia|]. split; [intros; lia|]. auto.
    - intros j d m' Hj (Hd & H1 & H2 & H3). unfold move_cell, ifp, assign. cbn.
      destruct (mval m rb j) as [v|] eqn:E; [|exfalso; apply (Hex j); auto; lia].
      eapply wp_RdV; [rewrite H2; [exact E|lia]|].
      apply wp_WrV; [rewrite H2 by lia; apply Hex; lia|]. apply wp_ret. cbn.
      split; [lia|]. split; [|split; auto].
      + intros i Hi. destruct (same rb rb d i) eqn:Es.
        * apply same_spec in Es as [_ <-]. rewrite <- E. f_equal. lia.
        * rewrite H1; auto. apply same_false in Es. destruct Es; [congruence|lia].
      + intros b i Hb. destruct (same rb b d i) eqn:Es.
        * apply same_spec in Es as [<- <-]. destruct Hb as [Hb|Hb]; [congruence|lia].
        * apply H2. destruct Hb; auto. right; lia.
    - intros d m' (Hd & H1 & H2 & H3). apply wp_ret. replace (t + (e - s)) with d by lia.
      unfold Q. replace (t + (e - s)) with d by lia. auto. }
  destruct W as ([] & m' & H1 & H2). exists m'. auto.
Qed.

Lemma front_run (vs : range -> list V) rs : forall lo hi target m,
  chain lo rs hi -> target <= lo ->
  (forall r, In r rs -> Z.of_nat (length (vs r)) <= rend r - rbegin r) ->
  (forall i, target <= i < hi -> mval m rb i <> None) ->
  (forall r k, In r rs -> (k < length (vs r))%nat ->
     mval m rb (rbegin r + Z.of_nat k) = nth_error (vs r) k) ->
  exists m',
    run (front_loop rb (map (fun r => rend r - rbegin r) rs)
           (map (fun r => Z.of_nat (length (vs r))) rs) lo target) m =
      Some (target + Z.of_nat (length (flat_map vs rs)), m') /\
    (forall k, (k < length (flat_map vs rs))%nat ->
       mval m' rb (target + Z.of_nat k) = nth_error (flat_map vs rs) k) /\
    (forall b i, b <> rb \/ ~ target <= i < hi -> mval m' b i = mval m b i) /\
    (forall b i, mmsk m' b i = mmsk m b i).
Proof.
  induction rs as [|r rs IH]; intros lo hi target m Hch Ht Hlen Hex Hvs.
  - exists m. cbn. rewrite Z.add_0_r. repeat split; auto. intros; lia.
  - cbn [map front_loop flat_map]. destruct Hch as (E & L & Hch).
    pose proof (chain_le _ _ _ Hch) as Hle.
    pose proof (Hlen r (or_introl eq_refl)) as Hlr.
    replace (_ <=? _) with true by (symmetry; apply Z.leb_le; auto).
    replace (lo + (rend r - rbegin r)) with (rend r) by lia.
    destruct (copy_down m lo (rend r) target) as (m1 & C1 & C2 & C3 & C4); [lia| |].
    { intros i Hi. apply Hex. lia. }
    rewrite run_seq, C1.
    destruct (IH (rend r) hi (target + Z.of_nat (length (vs r))) m1) as (m2 & D1 & D2 & D3 & D4); auto.
    + lia.
    + intros r' Hr'. apply Hlen; right; auto.
    + intros i Hi. destruct (Z_lt_dec i (target + (rend r - lo))).
      * rewrite C2 by lia. apply Hex. lia.
      * rewrite C3 by lia. apply Hex. lia.
    + intros r' k Hr' Hk.
      assert (rend r <= rbegin r').
      { clear -Hch Hr'. revert Hch Hr'. generalize (rend r) as x. induction rs as [|q rs IH]; intros x; [intros _ []|].
        intros (E & L & Hch) [<-|H]; [lia|]. specialize (IH _ Hch H). lia. }
      rewrite C3 by lia. apply Hvs; auto. right; auto.
    + exists m2. rewrite D1, app_length. split; [do 2 f_equal; lia|]. split; [|split].
      * intros k Hk. destruct (Nat.lt_ge_cases k (length (vs r))).
        -- rewrite nth_error_app1 by auto. rewrite D3 by lia. rewrite C2 by lia.
           rewrite <- Hvs by (auto; left; auto). f_equal. lia.
        -- rewrite nth_error_app2 by auto. rewrite <- D2 by lia. f_equal. lia.
      * intros b i Hb. rewrite D3, C3; auto; destruct Hb; auto; right; lia.
      * intros b i. rewrite D4, C4; auto.
Qed.
End Front.

Section Compress.
Context {V : Type}.
Implicit Types m : mem V.
Variables (C : ity) (ip : inpol V) (a rb : buf).

Lemma valid_values_app m l1 l2 :
  valid_values ip a m (l1 ++ l2) = valid_values ip a m l1 ++ valid_values ip a m l2.
Proof. apply flat_map_app. Qed.

Lemma valid_values_length m l : (length (valid_values ip a m l) <= length l)%nat.
Proof.
  unfold valid_values in *. induction l as [|i l IH]; cbn; auto. rewrite app_length.
  destruct (arg_at ip a m i); cbn in *; lia.
Qed.

Lemma zrange_snoc lo j : lo <= j -> zrange lo (j + 1) = zrange lo j ++ [j].
Proof.
  intros H. rewrite (zrange_app lo j (j + 1)) by lia. f_equal.
  rewrite zrange_cons, zrange_nil by lia. auto.
Qed.

Lemma nd_at_same m m' i : (forall b, mval m' b i = mval m b i) -> (forall b, mmsk m' b i = mmsk m b i) ->
  nd_at ip m' i = nd_at ip m i /\ (readable ip m i -> readable ip m' i).
Proof. intros H1 H2. destruct ip; cbn; rewrite ?H1, ?H2; auto. Qed.

Lemma compress_loop m lo hi : lo <= hi ->
  (forall i, lo <= i < hi -> arg_exists ip a m i /\ mval m rb i <> None) ->
  let vs := valid_values ip a m (zrange lo hi) in
  exists m', run (fold_range lo hi (compress_cell ip a rb) lo) m =
      Some (lo + Z.of_nat (length vs), m') /\
    (forall k, (k < length vs)%nat -> mval m' rb (lo + Z.of_nat k) = nth_error vs k) /\
    (forall b i, b <> rb \/ ~ lo <= i < lo + Z.of_nat (length vs) -> mval m' b i = mval m b i) /\
    (forall b i, mmsk m' b i = mmsk m b i).
Proof.
  intros Hle Hex vs.
  set (good := fun vs m' => 
    (forall k, (k < length vs)%nat -> mval m' rb (lo + Z.of_nat k) = nth_error vs k) /\
    (forall b i, b <> rb \/ ~ lo <= i < lo + Z.of_nat (length vs) -> mval m' b i = mval m b i) /\
    (forall b i, mmsk m' b i = mmsk m b i)).
  assert (W : wp (fold_range lo hi (compress_cell ip a rb) lo) m
    (fun t m' => t = lo + Z.of_nat (length vs) /\ good vs m')).
  { eapply wp_fold_range with (I := fun j t m' =>
      t = lo + Z.of_nat (length (valid_values ip a m (zrange lo j))) /\
      good (valid_values ip a m (zrange lo j)) m'); auto.
    - rewrite (zrange_nil lo lo) by lia. split; [cbn; lia|].
      split; [cbn; intros; lia|]. auto.
    - intros j t m' Hj (Ht & H1 & H2 & H3).
      rewrite zrange_snoc, valid_values_app by lia.
      pose proof (valid_values_length m (zrange lo j)) as Hl. rewrite length_zrange in Hl.
      set (us := valid_values ip a m (zrange lo j)) in *.
      destruct (Hex j Hj) as [[Hr Hv] _].
      destruct (nd_at_same m m' j) as [N1 N2]; [intros b; apply H2; lia|auto|].
      unfold compress_cell, ifp, notp. apply wp_bind, wp_bind.
      exists (nd_at ip m' j), m'. split; [apply run_nd; auto|].
      rewrite N1. apply wp_ret. cbn [valid_values flat_map]. unfold arg_at.
      destruct (nd_at ip m j); cbn [negb app].
      + apply wp_ret. rewrite app_nil_r. repeat split; auto.
      + destruct (mval m a j) as [v|] eqn:E; [|congruence]. cbn [app].
        apply wp_seq. unfold assign. cbn. eapply wp_RdV; [rewrite H2 by lia; exact E|].
        apply wp_WrV; [rewrite H2 by lia; apply Hex; lia|]. apply wp_ret. apply wp_ret.
        rewrite app_length. cbn [length]. split; [lia|]. unfold good. rewrite app_length. cbn.
        split; [|split; auto].
        * intros k Hk. destruct (same rb rb t _) eqn:Es.
          -- apply same_spec in Es as [_ Es]. replace k with (length us) by lia.
             rewrite nth_error_app2, Nat.sub_diag by lia. auto.
          -- apply same_false in Es. destruct Es as [?|Es]; [congruence|].
             rewrite H1, nth_error_app1 by lia. auto.
        * intros b i Hb. destruct (same rb b t i) eqn:Es.
          -- apply same_spec in Es as [<- <-]. destruct Hb as [Hb|Hb]; [congruence|lia].
          -- apply H2. destruct Hb; auto. right; lia. }
  destruct W as (t & m' & H1 & H2 & H3). exists m'. subst t. auto.
Qed.

Lemma rows_whole cols r : 
  compress_2d C ip a rb cols (r, whole1 cols) =
  bind (rows_loop (compress_cell ip a rb) cols (rbegin r) (rend r) (rbegin r * cols + 0))
    (fun target => Ret (conv C (target - (rbegin r * cols + 0)))).
Proof. reflexivity. Qed.

Definition scale (cols : Z) (r : range) : range :=
  {| rbegin := rbegin r * cols; rend := rend r * cols |}.

Lemma run_compress_2d cols r m : 0 <= cols -> rbegin r <= rend r ->
  run (compress_2d C ip a rb cols (r, whole1 cols)) m = run (compress_1d C ip a rb (scale cols r)) m.
Proof.
  intros Hc Hr. rewrite rows_whole. unfold compress_1d, scale. cbn [rbegin rend].
  rewrite !run_bind, run_rows_loop by auto.
  replace (rbegin r * cols + 0) with (rbegin r * cols) by lia. reflexivity.
Qed.

(** Footprints *)
Definition between (r : range) (i : Z) : bool := (rbegin r <=? i) && (i <? rend r).

Lemma between_spec r i : between r i = true <-> rbegin r <= i < rend r.
Proof. unfold between. rewrite andb_true_iff, Z.leb_le, Z.ltb_lt. tauto. Qed.

Lemma cell_footprint r j t : between r j = true -> rbegin r <= t <= j ->
  fits (setR rb None (between r)) (setW rb None (between r)) (compress_cell ip a rb j t) /\
  returns (fun t' => rbegin r <= t' <= j + 1) (compress_cell ip a rb j t).
Proof.
  intros Hj Ht. unfold compress_cell, ifp, notp.
  assert (Htb : between r t = true) by (apply between_spec in Hj; apply between_spec; lia).
  eapply returns_bind with (P := fun _ => True).
  - eapply fits_bind; [|intros x; exact I].
    destruct ip; cbn; auto; rewrite ?Hj, ?orb_true_r; auto.
  - destruct ip; cbn; auto.
  - intros [|] _; cbn; [|split; auto; lia].
    rewrite Hj, Htb, orb_true_r, Nat.eqb_refl. repeat split; auto; try lia. all: intros; lia.
Qed.

Lemma compress_1d_own r : rbegin r <= rend r -> own (between r) rb None (compress_1d C ip a rb r).
Proof.
  intros Hr. unfold own, compress_1d. apply fits_bind; [|intros; exact I].
  apply (returns_fold_range _ _ _ (fun j t => rbegin r <= t <= j)); auto; [lia|].
  intros j t Hj Ht. apply cell_footprint; auto. apply between_spec; auto.
Qed.

Lemma compress_2d_own cols r : 0 <= cols -> rbegin r <= rend r ->
  own (between (scale cols r)) rb None (compress_2d C ip a rb cols (r, whole1 cols)).
Proof.
  intros Hc Hr. rewrite rows_whole. unfold own. apply fits_bind; [|intros; exact I].
  apply (rows_loop_fits _ _ _ (fun j t => rbegin (scale cols r) <= t <= j)); auto; [cbn; lia|].
  intros j t Hj Ht. apply cell_footprint; auto. apply between_spec; auto.
Qed.

Lemma run_compress_1d m r : rbegin r <= rend r ->
  (forall i, rbegin r <= i < rend r -> arg_exists ip a m i /\ mval m rb i <> None) ->
  let vs := valid_values ip a m (indices r) in
  exists m', run (compress_1d C ip a rb r) m = Some (conv C (Z.of_nat (length vs)), m') /\
    (forall k, (k < length vs)%nat -> mval m' rb (rbegin r + Z.of_nat k) = nth_error vs k) /\
    (forall b i, b <> rb \/ ~ rbegin r <= i < rbegin r + Z.of_nat (length vs) -> mval m' b i = mval m b i) /\
    (forall b i, mmsk m' b i = mmsk m b i).
Proof.
  intros Hr Hex vs. destruct (compress_loop m (rbegin r) (rend r) Hr Hex) as (m' & H1 & H2).
  exists m'. split; auto. unfold compress_1d. rewrite run_bind, H1. cbn.
  fold (indices r). fold vs. do 3 f_equal. lia.
Qed.

(** ** Parallel *)

Lemma lists_ext {X} (l1 : list X) : forall l2, (forall k, nth_error l1 k = nth_error l2 k) -> l1 = l2.
Proof.
  induction l1 as [|x l1 IH]; intros [|y l2] H; auto.
  - specialize (H O). discriminate.
  - specialize (H O). discriminate.
  - pose proof (H O) as H0. cbn in H0. inversion H0. f_equal. apply IH. intros k. apply (H (S k)).
Qed.

Lemma chain_in rs : forall lo hi r, chain lo rs hi -> In r rs ->
  lo <= rbegin r /\ rbegin r < rend r /\ rend r <= hi.
Proof.
  induction rs as [|q rs IH]; intros lo hi r; [intros _ []|].
  intros (E & L & H) [<-|Hr].
  - apply chain_le in H. lia.
  - specialize (IH _ _ _ H Hr). lia.
Qed.

Lemma chain_disjoint rs : forall lo hi i j r s x, chain lo rs hi -> i <> j ->
  nth_error rs i = Some r -> nth_error rs j = Some s -> between r x = true -> between s x = false.
Proof.
  induction rs as [|q rs IH]; intros lo hi i j r s x H Hij Hi Hj Hx; [destruct i; discriminate|].
  destruct H as (E & L & H). destruct i as [|i], j as [|j]; cbn in Hi, Hj.
  - congruence.
  - inversion Hi; subst q. pose proof (chain_in _ _ _ s H (nth_error_In _ _ Hj)).
    apply not_true_iff_false. rewrite between_spec in *. lia.
  - inversion Hj; subst q. pose proof (chain_in _ _ _ r H (nth_error_In _ _ Hi)).
    apply not_true_iff_false. rewrite between_spec in *. lia.
  - apply (IH (rend q) hi i j r s x); auto.
Qed.

Lemma valid_values_concat m rs :
  valid_values ip a m (concat (map indices rs)) = flat_map (fun r => valid_values ip a m (indices r)) rs.
Proof. induction rs as [|r rs IH]; auto. cbn [map concat flat_map]. rewrite valid_values_app, IH; auto. Qed.

Lemma compress_tasks m rs n (ps : list (prog V Z)) :
  chain 0 rs n -> 0 <= n <= imax C ->
  length ps = length rs ->
  (forall k p r, nth_error ps k = Some p -> nth_error rs k = Some r ->
     own (between r) rb None p /\ forall m, run p m = run (compress_1d C ip a rb r) m) ->
  (forall i, 0 <= i < n -> arg_exists ip a m i /\ mval m rb i <> None) ->
  let vs := valid_values ip a m (zrange 0 n) in
  tasks_join ps (copy_to_front C rb (map (fun r => rend r - rbegin r) rs)) m
    (fun count m' => count = Z.of_nat (length vs) /\ starts_with rb vs m' /\ changes_front rb n m m').
Proof.
  intros Hch Hn Hlen Hps Hex vs.
  set (us := fun r => valid_values ip a m (indices r)).
  assert (Hmin : imin C <= 0) by (destruct C; cbn; lia).
  assert (Hsolo : forall r, In r rs -> exists m',
    run (compress_1d C ip a rb r) m = Some (Z.of_nat (length (us r)), m') /\
    (forall k, (k < length (us r))%nat -> mval m' rb (rbegin r + Z.of_nat k) = nth_error (us r) k) /\
    (forall i, mval m rb i <> None -> mval m' rb i <> None)).
  { intros r Hr. destruct (chain_in _ _ _ _ Hch Hr) as (L1 & L2 & L3).
    destruct (run_compress_1d m r) as (m' & R1 & R2 & R3 & R4); [lia|intros; apply Hex; lia|].
    exists m'. fold (us r) in *.
    assert (Hl : Z.of_nat (length (us r)) <= rend r - rbegin r).
    { pose proof (valid_values_length m (indices r)) as Hl. unfold indices in Hl at 2.
      rewrite length_zrange in Hl. fold (us r) in Hl. lia. }
    rewrite conv_id in R1 by (red; lia). split; auto. split; auto.
    intros i Hi. pose proof (run_dom _ _ _ _ R1) as [Hd _]. specialize (Hd rb i). tauto. }
  set (res := fun k => match nth_error rs k with Some r => Z.of_nat (length (us r)) | None => 0 end).
  set (ms := fun k => match nth_error rs k with
                      | Some r => match run (compress_1d C ip a rb r) m with Some (_, m') => m' | None => m end
                      | None => m end).
  set (Ss := fun k => match nth_error rs k with Some r => between r | None => fun _ => false end).
  assert (Hrf : race_free (length ps) (fun k => setR rb None (Ss k)) (fun k => setW rb None (Ss k))).
  { apply own_race_free. intros i j x Hi Hj Hij. unfold Ss.
    destruct (nth_error rs i) as [r|] eqn:Ei; [|discriminate].
    destruct (nth_error rs j) as [s|] eqn:Ej; auto. intros Hx. eapply chain_disjoint; eauto. }
  assert (Hnth : forall k p, nth_error ps k = Some p -> exists r, nth_error rs k = Some r).
  { intros k p Hp. destruct (nth_error rs k) as [r|] eqn:Er; eauto.
    apply nth_error_None in Er. assert (nth_error ps k <> None) by congruence.
    apply nth_error_Some in H. lia. }
  assert (Hwi : within (fun k => setR rb None (Ss k)) (fun k => setW rb None (Ss k)) ps).
  { intros k p Hp. destruct (Hnth k p Hp) as [r Hr]. unfold Ss. rewrite Hr.
    apply (Hps k p r Hp Hr). }
  destruct (seq_all_joined (length ps) _ _ m res ms ps Hrf eq_refl Hwi) as (out & m1 & O1 & O2 & O3 & O4).
  { intros k p Hp. destruct (Hnth k p Hp) as [r Hr]. unfold res, ms. rewrite Hr.
    destruct (Hps k p r Hp Hr) as [_ ->].
    destruct (Hsolo r (nth_error_In _ _ Hr)) as (m' & -> & _). auto. }
  assert (Hout : out = map (fun r => Z.of_nat (length (us r))) rs).
  { apply lists_ext. intros k. rewrite nth_error_map.
    destruct (nth_error out k) as [c|] eqn:Ec.
    - pose proof (O3 _ _ Ec) as ->. unfold res.
      destruct (nth_error rs k) as [r|] eqn:Er; auto.
      apply nth_error_None in Er. assert (nth_error out k <> None) by congruence.
      apply nth_error_Some in H. lia.
    - apply nth_error_None in Ec. replace (nth_error rs k) with (@None range); auto.
      symmetry. apply nth_error_None. lia. }
  (* the joined memory *)
  assert (M1 : forall r k, In r rs -> (k < length (us r))%nat ->
     mval m1 rb (rbegin r + Z.of_nat k) = nth_error (us r) k).
  { intros r k Hr Hk. apply In_nth_error in Hr as [j Hj].
    destruct (Hsolo r (nth_error_In _ _ Hj)) as (m' & R1 & R2 & _).
    assert (Hl : Z.of_nat (length (us r)) <= rend r - rbegin r).
    { pose proof (valid_values_length m (indices r)) as Hl. unfold indices in Hl at 2.
      rewrite length_zrange in Hl. fold (us r) in Hl.
      destruct (chain_in _ _ _ _ Hch (nth_error_In _ _ Hj)). lia. }
    assert (Hs : same_at m1 (ms j) (LV rb (rbegin r + Z.of_nat k))).
    { apply (proj1 (O4 _)).
      - rewrite Hlen. apply nth_error_Some. congruence.
      - cbn. rewrite Nat.eqb_refl. unfold Ss. rewrite Hj. apply between_spec. lia. }
    cbn in Hs. rewrite Hs. unfold ms. rewrite Hj, R1. auto. }
  assert (M2 : forall i, 0 <= i < n -> mval m1 rb i <> None).
  { intros i Hi. pose proof (run_dom _ _ _ _ O1) as [Hd _]. specialize (Hd rb i).
    destruct (Hex i Hi). tauto. }
  assert (M3 : (forall b i, b <> rb \/ ~ 0 <= i < n -> mval m1 b i = mval m b i) /\
               (forall b i, mmsk m1 b i = mmsk m b i)).
  { split.
    - intros b i Hb. apply (proj2 (O4 (LV b i))). intros k Hk. cbn.
      destruct (Nat.eqb_spec b rb); auto. destruct Hb as [Hb|Hb]; [congruence|]. cbn. unfold Ss.
      destruct (nth_error rs k) as [r|] eqn:Er; auto.
      destruct (chain_in _ _ _ _ Hch (nth_error_In _ _ Er)). apply not_true_iff_false.
      rewrite between_spec. lia.
    - intros b i. apply (proj2 (O4 (LM b i))). intros k Hk. cbn. auto. }
  destruct (front_run rb us rs 0 n 0 m1 Hch) as (m2 & F1 & F2 & F3 & F4); auto; try lia.
  { intros r Hr. pose proof (valid_values_length m (indices r)) as Hl. unfold indices in Hl at 2.
    rewrite length_zrange in Hl. fold (us r) in Hl. destruct (chain_in _ _ _ _ Hch Hr). lia. }
  assert (Evs : flat_map us rs = vs).
  { unfold vs. rewrite <- (chain_concat _ _ _ Hch), valid_values_concat. reflexivity. }
  rewrite Evs in *.
  assert (Hcount : Z.of_nat (length vs) <= n).
  { pose proof (valid_values_length m (zrange 0 n)) as Hl. rewrite length_zrange in Hl. fold vs in Hl. lia. }
  split; [exact (race_free_no_race (length ps) _ _ ps m eq_refl Hrf Hwi)|]. intros sched.
  destruct (interleaving_sequential (length ps) _ _ m ps out m1 sched Hrf eq_refl Hwi O1)
    as (ps' & m' & E1 & E2).
  destruct (interleaving_completes (length ps) _ _ m ps out m1 sched Hrf eq_refl Hwi O1)
    as (s' & ps2 & m3 & E3 & E4 & _).
  exists ps', m'. split; [auto|split].
  - intros results Hres. destruct (E2 results Hres) as [-> Hme].
    assert (Hrun : run (copy_to_front C rb (map (fun r => rend r - rbegin r) rs) out) m1 =
      Some (Z.of_nat (length vs), m2)).
    { unfold copy_to_front. rewrite run_bind, Hout, F1. cbn. rewrite conv_id by (red; lia). auto. }
    destruct (run_mem_eq _ m1 m' _ _ (mem_eq_sym _ _ Hme) Hrun) as (m4 & G1 & G2).
    exists (Z.of_nat (length vs)), m4. split; auto. split; auto.
    assert (Gv : forall b i, mval m4 b i = mval m2 b i) by (intros b i; symmetry; apply (G2 (LV b i))).
    assert (Gm : forall b i, mmsk m4 b i = mmsk m2 b i) by (intros b i; symmetry; apply (G2 (LM b i))).
    destruct M3 as [M3 M4]. split; [|split].
    + intros k Hk. rewrite Gv. rewrite <- F2 by auto. f_equal.
    + intros b i Hb. rewrite Gv, F3, M3; auto.
    + intros b i. rewrite Gm, F4, M4; auto.
  - exists s', out, m3. rewrite exec_app, E1 in E3. subst ps2. auto.
Qed.
End Compress.

Section CompressAll.
Context {V : Type}.
Implicit Types m : mem V.
Variables (C : ity) (ip : inpol V) (a rb : buf).

Theorem compress_1d_sequential m n : 0 <= n ->
  (forall i, 0 <= i < n -> arg_exists ip a m i /\ mval m rb i <> None) ->
  let vs := valid_values ip a m (zrange 0 n) in
  exists m', run (compress_sequential_1d C ip a rb n n) m = Some (conv C (Z.of_nat (length vs)), m') /\
    starts_with rb vs m' /\ changes_front rb (Z.of_nat (length vs)) m m'.
Proof.
  intros Hn Hex vs. unfold compress_sequential_1d. rewrite Z.eqb_refl.
  destruct (run_compress_1d C ip a rb m (whole1 n)) as (m' & R1 & R2 & R3 & R4); auto.
  exists m'. split; [exact R1|]. split; [exact R2|split; auto].
Qed.

Theorem compress_2d_sequential m rows cols : 0 <= rows -> 0 <= cols ->
  (forall i, 0 <= i < rows * cols -> arg_exists ip a m i /\ mval m rb i <> None) ->
  let vs := valid_values ip a m (zrange 0 (rows * cols)) in
  exists m', run (compress_sequential_2d C ip a rb rows cols (rows * cols)) m =
      Some (conv C (Z.of_nat (length vs)), m') /\
    starts_with rb vs m' /\ changes_front rb (Z.of_nat (length vs)) m m'.
Proof.
  intros Hr Hc Hex vs. unfold compress_sequential_2d. rewrite Z.eqb_refl.
  unfold whole2. rewrite run_compress_2d by (cbn; auto).
  change (scale cols (whole1 rows)) with (whole1 (rows * cols)).
  destruct (run_compress_1d C ip a rb m (whole1 (rows * cols))) as (m' & R1 & R2 & R3 & R4); auto.
  { cbn; nia. }
  exists m'. split; [exact R1|]. split; [exact R2|split; auto].
Qed.

Lemma chain_sizes rs : forall lo hi, chain lo rs hi -> 0 <= lo -> hi < 2 ^ 64 ->
  map range_size rs = map (fun r => rend r - rbegin r) rs.
Proof.
  intros lo hi H Hlo Hhi. apply map_ext_in. intros r Hr.
  destruct (chain_in _ _ _ _ H Hr). apply size_t_small. unfold size_t_max_plus_1. lia.
Qed.

Theorem compress_1d_parallel m n nr_threads : 0 <= n <= imax C -> n < 2 ^ 64 -> 1 <= nr_threads ->
  (forall i, 0 <= i < n -> arg_exists ip a m i /\ mval m rb i <> None) ->
  let vs := valid_values ip a m (zrange 0 n) in
  exists tasks join, compress_parallel_1d C ip a rb nr_threads n n = Some (tasks, join) /\
    tasks_join tasks join m
      (fun count m' => count = Z.of_nat (length vs) /\ starts_with rb vs m' /\ changes_front rb n m m').
Proof.
  intros Hn H64 Ht Hex vs. unfold compress_parallel_1d. rewrite Z.eqb_refl.
  destruct (index_ranges_chain nr_threads n Ht) as (rs & H1 & H2 & H3); [lia|].
  rewrite H1. cbn [option_map]. eexists _, _. split; [reflexivity|].
  rewrite (chain_sizes rs 0 n) by (auto; lia).
  apply compress_tasks with (ip := ip) (a := a); auto.
  - apply map_length.
  - intros k p r Hp Hr. rewrite nth_error_map, Hr in Hp. inversion Hp; subst.
    destruct (chain_in _ _ _ _ H2 (nth_error_In _ _ Hr)). split; auto. apply compress_1d_own. lia.
Qed.

Lemma chain_scale cols rs : 0 < cols -> forall lo hi, chain lo rs hi ->
  chain (lo * cols) (map (scale cols) rs) (hi * cols).
Proof.
  intros Hc. induction rs as [|r rs IH]; cbn; intros lo hi H; [congruence|].
  destruct H as (E & L & H). split; [congruence|]. split; [nia|auto].
Qed.

Theorem compress_2d_parallel m rows cols nr_threads : 0 <= rows -> 0 <= cols ->
  rows * cols <= imax C -> rows * cols < 2 ^ 64 -> rows < 2 ^ 64 -> 1 <= nr_threads ->
  (forall i, 0 <= i < rows * cols -> arg_exists ip a m i /\ mval m rb i <> None) ->
  let vs := valid_values ip a m (zrange 0 (rows * cols)) in
  exists tasks join, compress_parallel_2d C ip a rb nr_threads rows cols (rows * cols) = Some (tasks, join) /\
    tasks_join tasks join m
      (fun count m' => count = Z.of_nat (length vs) /\ starts_with rb vs m' /\
         changes_front rb (rows * cols) m m').
Proof.
  intros Hr Hc Hn H64 Hr64 Ht Hex vs. unfold compress_parallel_2d. rewrite Z.eqb_refl.
  destruct (index_ranges_chain nr_threads rows Ht) as (rs & H1 & H2 & H3); [lia|].
  destruct (index_ranges_2d_1d nr_threads rows cols Ht) as (rs' & H1' & H4);
    [unfold size_t_max_plus_1; lia|lia|].
  rewrite H1 in H1'. inversion H1'; subst rs'. rewrite H4. cbn [option_map].
  eexists _, _. split; [reflexivity|]. rewrite !map_map.
  destruct (Z.eq_dec cols 0) as [->|Hne].
  { (* no elements at all *)
    assert (Evs : vs = []). { unfold vs. rewrite Z.mul_0_r. reflexivity. }
    rewrite Evs, Z.mul_0_r. cbn [length Z.of_nat].
    assert (Htask : forall r : range, rbegin r <= rend r ->
       own (fun _ => false) rb None (compress_2d C ip a rb 0 (r, {| rbegin := 0; rend := 0 |})) /\
       forall m, run (compress_2d C ip a rb 0 (r, {| rbegin := 0; rend := 0 |})) m = Some (0, m)).
    { intros r Hrr. change {| rbegin := 0; rend := 0 |} with (whole1 0). split.
      - eapply own_weaken; [|apply compress_2d_own; [lia|auto]].
        intros i Hi. apply between_spec in Hi. cbn in Hi. lia.
      - intros m'. rewrite run_compress_2d by (auto; lia). unfold compress_1d, scale. cbn [rbegin rend].
        rewrite !Z.mul_0_r, fold_range_empty by lia. cbn. rewrite conv_id; auto.
        red. destruct C; cbn; lia. }
    set (ps := map (fun r => compress_2d C ip a rb 0 (r, {| rbegin := 0; rend := 0 |})) rs).
    assert (Hrf : race_free (length ps) (fun _ => setR rb None (fun _ => false)) (fun _ => setW rb None (fun _ => false))).
    { apply (own_race_free _ (fun _ _ => false)). discriminate. }
    assert (Hin : forall k p, nth_error ps k = Some p -> exists r, p = compress_2d C ip a rb 0 (r, {| rbegin := 0; rend := 0 |}) /\ rbegin r <= rend r).
    { intros k p Hp. unfold ps in Hp. rewrite nth_error_map in Hp.
      destruct (nth_error rs k) as [r|] eqn:Er; [|discriminate]. inversion Hp.
      destruct (chain_in _ _ _ _ H2 (nth_error_In _ _ Er)). exists r. split; auto. lia. }
    assert (Hwi : within (fun _ => setR rb None (fun _ => false)) (fun _ => setW rb None (fun _ => false)) ps).
    { intros k p Hp. destruct (Hin k p Hp) as (r & -> & Hrr). apply Htask; auto. }
    assert (Hseq : run (seq_all ps) m = Some (map (fun _ => 0) rs, m)).
    { assert (G : forall rs' lo hi, chain lo rs' hi ->
        run (seq_all (map (fun r => compress_2d C ip a rb 0 (r, {| rbegin := 0; rend := 0 |})) rs')) m =
          Some (map (fun _ => 0) rs', m)).
      { clear -Htask. induction rs' as [|r rs' IH]; intros lo hi H; auto. destruct H as (E & L & H).
        cbn [map seq_all]. rewrite run_bind, (proj2 (Htask r ltac:(lia))), run_bind, (IH _ _ H). auto. }
      apply (G rs _ _ H2). }
    split; [exact (race_free_no_race (length ps) _ _ ps m eq_refl Hrf Hwi)|]. intros sched.
    destruct (interleaving_sequential (length ps) _ _ m ps _ m sched Hrf eq_refl Hwi Hseq)
      as (ps' & m' & E1 & E2).
    destruct (interleaving_completes (length ps) _ _ m ps _ m sched Hrf eq_refl Hwi Hseq)
      as (s' & ps2 & m3 & E3 & E4 & _).
    exists ps', m'. split; [auto|split].
    - intros results Hres. destruct (E2 results Hres) as [-> Hme].
      assert (Hfront : forall rs', run (front_loop rb (map (fun x : range => ranges_size
          [fst (x, {| rbegin := 0; rend := 0 |}); snd (x, {| rbegin := 0; rend := 0 |})]) rs') (map (fun _ => 0) rs') 0 0) m'
          = Some (0, m')).
      { induction rs' as [|r rs' IH]; auto. cbn [map front_loop].
        assert (Es : ranges_size [fst (r, {| rbegin := 0; rend := 0 |}); snd (r, {| rbegin := 0; rend := 0 |})] = 0).
        { unfold ranges_size. cbn [fst snd fold_left]. unfold range_size at 1. cbn [rbegin rend].
          change (size_t (0 - 0)) with 0. rewrite Z.mul_0_r. reflexivity. }
        rewrite Es. cbn [Z.leb Z.compare]. rewrite run_seq.
        unfold copy_1d. cbn [rbegin rend]. rewrite fold_range_empty by lia. cbn. exact IH. }
      exists 0, m'. split.
      + unfold copy_to_front. rewrite run_bind, Hfront. cbn. rewrite conv_id; auto.
        red. destruct C; cbn; lia.
      + split; [auto|]. split; [intros k Hk; cbn in Hk; lia|].
        split; intros b i; intros; [apply (Hme (LV b i))|apply (Hme (LM b i))].
    - eexists s', _, m3. rewrite exec_app, E1 in E3. subst ps2. exact E3. }
  replace (map (fun x : range => ranges_size [fst (x, {| rbegin := 0; rend := cols |});
             snd (x, {| rbegin := 0; rend := cols |})]) rs)
    with (map (fun r => rend r - rbegin r) (map (scale cols) rs)).
  2: { rewrite map_map. apply map_ext_in. intros r Hr'. destruct (chain_in _ _ _ _ H2 Hr') as (L1 & L2 & L3).
       unfold ranges_size, range_size. cbn [fst snd fold_left rbegin rend scale].
       assert ((rend r - rbegin r) * cols < 2 ^ 64) by nia.
       assert (0 <= (rend r - rbegin r) * cols) by nia.
       assert (cols < 2 ^ 64) by nia. unfold size_t_max_plus_1.
       rewrite (size_t_small (rend r - rbegin r)), (size_t_small (cols - 0)) by (unfold size_t_max_plus_1; lia).
       rewrite Z.mul_1_l, (size_t_small (rend r - rbegin r)) by (unfold size_t_max_plus_1; lia).
       rewrite size_t_small by (unfold size_t_max_plus_1; lia). lia. }
  apply compress_tasks with (ip := ip) (a := a); auto.
  - apply (chain_scale cols rs ltac:(lia) 0 rows H2).
  - split; [nia|auto].
  - rewrite !map_length. auto.
  - intros k p r Hp Hk. rewrite nth_error_map in Hp, Hk.
    destruct (nth_error rs k) as [q|] eqn:E; [|discriminate]. inversion Hp; inversion Hk; subst.
    destruct (chain_in _ _ _ _ H2 (nth_error_In _ _ E)).
    change {| rbegin := 0; rend := cols |} with (whole1 cols). split.
    + apply compress_2d_own; lia.
    + intros m'. apply run_compress_2d; lia.
Qed.
End CompressAll.

Section Decompress.
Context {V : Type}.
Implicit Types m : mem V.
Variables (ip : inpol V) (op : outpol V) (a rb : buf).
Hypothesis Hsrc : a <> rb.
Hypothesis Hap : policy_apart ip op rb.
Hypothesis Hmarks : marks_result op rb.

Lemma rank_next m j : 0 <= j ->
  rank ip m (j + 1) = if nd_at ip m j then rank ip m j else rank ip m j + 1.
Proof.
  intros Hj. unfold rank. rewrite zrange_snoc, filter_app, app_length by lia. cbn.
  destruct (nd_at ip m j); cbn; lia.
Qed.

(** The element that is put at [i]. *)
Definition unpacked m (i : Z) : option V :=
  if nd_at ip m i then None else mval m a (rank ip m i).

Lemma does_decompress m n : 0 <= n ->
  (forall i, 0 <= i < n -> readable ip m i /\ (nd_at ip m i = false -> mval m a (rank ip m i) <> None)) ->
  does (unwritten op rb) m (decompress_1d ip op a rb (whole1 n))
    (flat_map (leave op rb (unpacked m)) (zrange 0 n)) tt.
Proof.
  intros Hn Hex. unfold decompress_1d. eapply does_seq_skip. cbn [whole1 rbegin rend].
  refine (does_fold_range (unwritten op rb) m 0 n (decompress_cell ip op a rb) (rank ip m)
           (leave op rb (unpacked m)) Hn _).
  intros j Hj. destruct (Hex j Hj) as [Hr Hv]. unfold decompress_cell.
  eapply does_ifp; [apply does_nd; auto|]. rewrite rank_next by lia. unfold leave, unpacked.
  destruct (nd_at ip m j).
  - rewrite <- (app_nil_r (mark_at op j)). eapply does_seq; [apply does_mark|]. split; auto.
  - destruct (mval m a (rank ip m j)) as [v|] eqn:E; [|exfalso; apply Hv; auto].
    rewrite <- (app_nil_r [WV rb j v]). eapply does_seq with (a := tt); [|split; auto].
    cbn. split.
    + unfold unwritten. cbn. destruct (Nat.eqb_spec a rb); [congruence|auto].
    + exists v. split; auto. exists []. split; auto.
Qed.

Lemma run_decompress_2d m rows cols : 0 <= rows -> 0 <= cols ->
  run (decompress_2d ip op a rb cols (whole2 rows cols)) m =
  run (decompress_1d ip op a rb (whole1 (rows * cols))) m.
Proof.
  intros Hr Hc.
  change (decompress_2d ip op a rb cols (whole2 rows cols)) with
    (seq (rows_loop (decompress_cell ip op a rb) cols 0 rows (0 * cols + 0)) skip).
  unfold decompress_1d. rewrite !run_seq, run_rows_loop by auto. cbn [whole1 rbegin rend].
  reflexivity.
Qed.

Lemma decompress_result m n p : 0 <= n ->
  (forall i, 0 <= i < n -> readable ip m i /\ (nd_at ip m i = false -> mval m a (rank ip m i) <> None) /\
     result_exists op rb m i) ->
  run p m = run (decompress_1d ip op a rb (whole1 n)) m ->
  exists m', run p m = Some (tt, m') /\
    (forall i, 0 <= i < n -> holds op rb m m' i (value_or_no_data (unpacked m i))) /\
    changes_only op rb (zrange 0 n) m m'.
Proof.
  intros Hn Hex Hp.
  assert (Hres : forall d, In d (zrange 0 n) -> result_exists op rb m d).
  { intros d Hd. apply in_zrange in Hd. apply Hex; auto. }
  exists (writes (flat_map (leave op rb (unpacked m)) (zrange 0 n)) m).
  destruct (writes_moves op rb (unpacked m) Hmarks (zrange 0 n) m Hres) as [W1 W2].
  split; [|split; [intros i Hi; apply W1, in_zrange; auto|auto]].
  rewrite Hp. apply moves_sequential; auto. apply does_decompress; auto.
  intros i Hi. destruct (Hex i Hi) as (A & B & _). auto.
Qed.

(** The valid element with a given rank. *)
Lemma nth_valid m src n i : 0 <= i < n ->
  (forall j, 0 <= j < n -> mval m src j <> None) ->
  nd_at ip m i = false ->
  nth_error (valid_values ip src m (zrange 0 n)) (Z.to_nat (rank ip m i)) = mval m src i.
Proof.
  intros Hi Hex Hnd.
  assert (Hrank : forall j, 0 <= j <= n -> rank ip m j = Z.of_nat (length (valid_values ip src m (zrange 0 j)))).
  { intros j Hj. unfold rank. f_equal.
    assert (Hall : forall k, In k (zrange 0 j) -> mval m src k <> None).
    { intros k Hk. apply in_zrange in Hk. apply Hex. lia. }
    revert Hall. generalize (zrange 0 j) as l. induction l as [|k l IH]; intros Hall; auto.
    cbn [filter valid_values flat_map]. rewrite app_length. unfold arg_at.
    specialize (Hall k (or_introl eq_refl)) as Hk.
    change (flat_map (fun i : Z => match (if nd_at ip m i then None else mval m src i) with
      | Some v => [v] | None => [] end) l) with (valid_values ip src m l).
    rewrite <- IH by (intros; apply Hall; right; auto).
    destruct (nd_at ip m k); cbn; auto. destruct (mval m src k); [auto|congruence]. }
  rewrite Hrank by lia. rewrite Nat2Z.id.
  rewrite (zrange_app 0 i n), (zrange_cons i n) by lia.
  rewrite valid_values_app. rewrite nth_error_app2, Nat.sub_diag by auto.
  cbn. unfold arg_at. rewrite Hnd. destruct (mval m src i) eqn:E; auto.
  exfalso. apply (Hex i); auto.
Qed.

Lemma rank_bound m src n i : 0 <= i < n ->
  (forall j, 0 <= j < n -> mval m src j <> None) -> nd_at ip m i = false ->
  (Z.to_nat (rank ip m i) < length (valid_values ip src m (zrange 0 n)))%nat.
Proof.
  intros Hi Hex Hnd. apply nth_error_Some. rewrite nth_valid; auto.
Qed.
End Decompress.
