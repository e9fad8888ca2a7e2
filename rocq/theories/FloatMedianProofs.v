(** * Proofs about the median and the mode of floating point numbers *)
From Coq Require Import ZArith List Bool Lia SpecFloat Sorting.Sorted Sorting.Permutation.
From Verif Require Import LangModel IntsModel FloatModel IeeeSpec IeeeProofs FloatSpec FloatProofs FloatProps AccumModel AccumProofs AggModel AggSpec
  FloatAccumModel FloatAccumSpec FloatAccumProofs FloatSumSpec FloatSumProofs FloatMedianModel FloatMedianSpec.
Import ListNotations.
Open Scope Z_scope.

Section Format.
Variable f : fmt.
Notation prec := (fprec f).
Notation emax := (femax f).
Notation is_number := (is_number prec emax).
Notation is_float := (is_float prec emax).

(** ** Values as integers *)
Definition bound : Z := 2 * largest f + largest_step f.
Definition key (x : spec_float) : Z := rank x * bound + fvalue f x.

Lemma value_bound x : is_float x -> Z.abs (fvalue f x) < bound.
Proof.
  intros X. assert (B : 0 < bound) by (unfold bound; destruct f; vm_compute; reflexivity).
  destruct (is_finite x) eqn:F.
  - assert (N := number_bound f x (conj X F)). unfold overflows in N. fold bound in N. lia.
  - destruct x; try discriminate; unfold fvalue; cbn [units]; rewrite Z.mul_0_l; exact B.
Qed.
Lemma infinite_value x : rank x <> 0 -> fvalue f x = 0.
Proof. destruct x; cbn [rank]; intros; try congruence; reflexivity. Qed.
Lemma rank_range x : -1 <= rank x <= 1.
Proof. destruct x as [|[]| |]; cbn [rank]; lia. Qed.

Lemma below_key x y : is_float x -> is_float y -> (below f x y <-> key x < key y).
Proof.
  intros X Y. assert (BX := value_bound x X). assert (BY := value_bound y Y). assert (RX := rank_range x). assert (RY := rank_range y).
  assert (IX := infinite_value x). assert (IY := infinite_value y). unfold below, key.
  assert (C : forall z, -1 <= rank z <= 1 -> rank z = -1 \/ rank z = 0 \/ rank z = 1) by (intros; lia).
  destruct (C x RX) as [E|[E|E]], (C y RY) as [E'|[E'|E']]; rewrite E, E' in *; try (rewrite IX by lia); try (rewrite IY by lia); lia.
Qed.
Lemma alike_key x y : is_float x -> is_float y -> (alike f x y <-> key x = key y).
Proof.
  intros X Y. assert (BX := value_bound x X). assert (BY := value_bound y Y). assert (RX := rank_range x). assert (RY := rank_range y).
  assert (IX := infinite_value x). assert (IY := infinite_value y). unfold alike, key.
  assert (C : forall z, -1 <= rank z <= 1 -> rank z = -1 \/ rank z = 0 \/ rank z = 1) by (intros; lia).
  destruct (C x RX) as [E|[E|E]], (C y RY) as [E'|[E'|E']]; rewrite E, E' in *; try (rewrite IX by lia); try (rewrite IY by lia); lia.
Qed.

(** ** When sorting is defined *)
Lemma sortable_iff vs : floats f vs -> (sortable vs = true <-> weak_order f vs).
Proof.
  intros H. assert (HF : forall x, In x vs -> is_float x) by (apply Forall_forall; exact H).
  assert (LT : forall x y, In x vs -> In y vs -> SFltb x y = true <-> is_nan x = false /\ is_nan y = false /\ below f x y).
  { intros x y X Y. destruct (is_nan x) eqn:NX; [destruct x; try discriminate; split; [intros E; destruct y as [[]|[]| |[]]; discriminate|intros (E & _); discriminate]|].
    destruct (is_nan y) eqn:NY; [destruct y; try discriminate; split; [intros E; destruct x as [[]|[]| |[]]; discriminate|intros (_ & E & _); discriminate]|].
    destruct (compare_order f x y (HF x X) (HF y Y) NX NY) as (c & C1 & C2). unfold SFltb. rewrite C1. destruct (order_exclusive f x y) as (O1 & O2 & O3).
    destruct c; split; intros Q; try discriminate; auto; destruct Q as (_ & _ & Q); tauto. }
  unfold sortable. rewrite orb_true_iff, negb_true_iff. split.
  - intros [N|N] x y z X Y Z U V.
    + assert (NN : forall w, In w vs -> is_nan w = false).
      { intros w W. destruct (is_nan w) eqn:E; auto. exfalso. assert (existsb is_nan vs = true) by (apply existsb_exists; eauto). congruence. }
      unfold unordered in *. rewrite (NN x X), (NN y Y), (NN z Z) in *. right. right.
      destruct U as [U|[U|U]]; try discriminate. destruct V as [V|[V|V]]; try discriminate. rewrite !below_key in * by auto. lia.
    + unfold unordered. destruct (is_nan x) eqn:NX; auto. destruct (is_nan z) eqn:NZ; auto. right. right.
      rewrite forallb_forall in N. assert (N1 := N x X). assert (N2 := N z Z). rewrite forallb_forall in N1, N2. specialize (N1 z Z). specialize (N2 x X).
      rewrite negb_true_iff in N1, N2. split; intros B.
      * assert (SFltb x z = true) by (apply LT; auto). congruence.
      * assert (SFltb z x = true) by (apply LT; auto). congruence.
  - intros W. destruct (existsb is_nan vs) eqn:E; auto. right. apply existsb_exists in E. destruct E as (n & N1 & N2).
    apply forallb_forall. intros x X. apply forallb_forall. intros y Y. rewrite negb_true_iff. destruct (SFltb x y) eqn:L; auto. exfalso.
    apply LT in L; auto. destruct L as (L1 & L2 & L3). specialize (W x n y X N1 Y). unfold unordered in W. rewrite L1, L2, N2 in W.
    destruct W as [W|[W|W]]; auto; try discriminate. tauto.
Qed.
Lemma no_nan_sortable vs : no_nan vs -> sortable vs = true.
Proof.
  intros H. unfold sortable. apply orb_true_iff. left. rewrite negb_true_iff. destruct (existsb is_nan vs) eqn:E; auto.
  apply existsb_exists in E. destruct E as (x & X1 & X2). unfold no_nan in H. rewrite Forall_forall in H. rewrite H in X2; auto.
Qed.
Lemma sorted_order sort vs : sorts f sort -> floats f vs -> no_nan vs -> in_order f vs (sort vs).
Proof.
  intros S H N. destruct (S vs H) as [P Q]; [apply sortable_iff; auto; apply no_nan_sortable; auto|]. split; auto.
  assert (N' : no_nan (sort vs)) by (unfold no_nan in *; rewrite Forall_forall in *; intros x X; apply N; eapply Permutation_in; [apply Permutation_sym; exact P|auto]).
  clear - Q N'. induction Q as [|x l Q IH F]; constructor; inversion N'; subst; auto.
  rewrite Forall_forall in *. intros y Y. destruct (F y Y) as [E|[E|E]]; auto; [congruence|]. inversion N' as [|? ? ? NL]; subst. unfold no_nan in NL. rewrite Forall_forall in NL. rewrite NL in E; auto. discriminate.
Qed.

(** ** The order of the values does not matter *)
Lemma order_keys vs s : floats f vs -> in_order f vs s -> is_sorted (map key vs) (map key s).
Proof.
  intros H [P Q]. split; [apply Permutation_map; auto|].
  assert (FS : Forall is_float s) by (rewrite Forall_forall in *; intros x X; apply (proj1 (Forall_forall _ _) H); eapply Permutation_in; [apply Permutation_sym; exact P|auto]).
  clear - Q FS. induction Q as [|x l Q IH F]; cbn [map]; constructor; inversion FS as [|? ? X L]; subst; auto.
  rewrite Forall_forall in *. intros k K. apply in_map_iff in K. destruct K as (y & <- & Y). specialize (F y Y). rewrite below_key in F by auto. lia.
Qed.
Lemma in_order_floats vs s : floats f vs -> in_order f vs s -> floats f s.
Proof. intros H [P _]. unfold floats in *. rewrite Forall_forall in *. intros x X. apply H. eapply Permutation_in; [apply Permutation_sym; exact P|auto]. Qed.
Lemma in_order_no_nan vs s : no_nan vs -> in_order f vs s -> no_nan s.
Proof. intros H [P _]. unfold no_nan in *. rewrite Forall_forall in *. intros x X. apply H. eapply Permutation_in; [apply Permutation_sym; exact P|auto]. Qed.

Lemma orders_alike vs vs' s s' : floats f vs -> Permutation vs vs' -> in_order f vs s -> in_order f vs' s' -> map key s = map key s'.
Proof.
  intros H P A B. assert (H' : floats f vs') by (unfold floats in *; rewrite Forall_forall in *; intros x X; apply H; eapply Permutation_in; [apply Permutation_sym; exact P|auto]).
  apply (is_sorted_unique (map key vs)); [apply order_keys; auto|]. assert (K := order_keys vs' s' H' B). destruct K as [K1 K2]. split; auto.
  apply perm_trans with (map key vs'); auto. apply Permutation_map. auto.
Qed.
Lemma key_nth s s' i d : map key s = map key s' -> key (nth i s d) = key (nth i s' d).
Proof. intros E. rewrite <- !(map_nth key), E. reflexivity. Qed.

Definition both_zero (x y : spec_float) : Prop := exists s t, x = S754_zero s /\ y = S754_zero t.
Lemma key_same x y : is_float x -> is_float y -> is_nan x = false -> is_nan y = false -> key x = key y -> x = y \/ both_zero x y.
Proof.
  intros X Y NX NY E. apply alike_key in E; auto. destruct E as [R E].
  destruct (is_finite x) eqn:FX, (is_finite y) eqn:FY.
  - assert (RX : rank x = 0) by (destruct x; auto; discriminate). specialize (E RX). destruct (Z.eq_dec (fvalue f x) 0) as [Z0|NZ].
    + right. destruct x as [s|s| |s m e]; try discriminate; [|exfalso; eapply (finite_nonzero f); eauto; split; auto].
      destruct y as [t|t| |t m' e']; try discriminate; [exists s, t; auto|exfalso; eapply (finite_nonzero f); [split; [exact Y|reflexivity]|congruence]].
    + left. apply (number_inj f); auto; split; auto.
  - exfalso. destruct x as [|[]| |]; destruct y as [|[]| |]; try discriminate; cbn [rank] in R; lia.
  - exfalso. destruct x as [|[]| |]; destruct y as [|[]| |]; try discriminate; cbn [rank] in R; lia.
  - left. destruct x as [|[]| |]; try discriminate; destruct y as [|[]| |]; try discriminate; cbn [rank] in R; auto; lia.
Qed.
Lemma plus_same x x' y y' : x = x' \/ both_zero x x' -> y = y' \/ both_zero y y' -> SFadd prec emax x y = SFadd prec emax x' y' \/ both_zero (SFadd prec emax x y) (SFadd prec emax x' y').
Proof.
  intros [<-|(s & t & -> & ->)] [<-|(s' & t' & -> & ->)]; auto.
  - destruct x as [u|u| |u m e]; auto. right. destruct u, s', t'; do 2 eexists; split; reflexivity.
  - destruct y as [u|u| |u m e]; auto. right. destruct u, s, t; do 2 eexists; split; reflexivity.
  - right. destruct s, t, s', t'; do 2 eexists; split; reflexivity.
Qed.

(** ** Half of a number *)
Lemma two_is : to_format f (NInt S32 2) = match f with Single => S754_finite false 8388608 (-22) | Double => S754_finite false 4503599627370496 (-51) end.
Proof. destruct f; vm_compute; reflexivity. Qed.
Lemma two_value : fvalue f (to_format f (NInt S32 2)) = 2 * one.
Proof. rewrite two_is. destruct f; vm_compute; reflexivity. Qed.
Lemma half_same x x' : x = x' \/ both_zero x x' ->
  SFdiv prec emax x (to_format f (NInt S32 2)) = SFdiv prec emax x' (to_format f (NInt S32 2)) \/
  both_zero (SFdiv prec emax x (to_format f (NInt S32 2))) (SFdiv prec emax x' (to_format f (NInt S32 2))).
Proof. intros [<-|(s & t & -> & ->)]; auto. right. rewrite two_is. destruct f, s, t; do 2 eexists; split; reflexivity. Qed.

Lemma half_nearest t : is_number t -> is_number (SFdiv prec emax t (to_format f (NInt S32 2))) /\ nearest f (fvalue f t) 2 (SFdiv prec emax t (to_format f (NInt S32 2))).
Proof.
  intros T. assert (P := one_pos). assert (C : is_number (to_format f (NInt S32 2))) by (rewrite two_is; destruct f; split; reflexivity).
  assert (R := div_rounding f t _ T C). rewrite two_value in R. specialize (R ltac:(lia)).
  rewrite (Z.sgn_pos (2 * one)), (Z.abs_eq (2 * one)), Z.mul_1_l in R by lia. assert (O := rounding_outcome f _ _ _ R). rewrite isfinite_eq in O.
  destruct (is_finite (SFdiv prec emax t (to_format f (NInt S32 2)))) eqn:F.
  - destruct O as [[O1 O2] _]. split; auto. split; auto. intros w W. specialize (O2 w W).
    assert (S : forall u, Z.abs (fvalue f u * (2 * one) - fvalue f t * one) = Z.abs (fvalue f u * 2 - fvalue f t) * one).
    { intros u. replace (fvalue f u * (2 * one) - fvalue f t * one) with ((fvalue f u * 2 - fvalue f t) * one) by ring. rewrite Z.abs_mul, (Z.abs_eq one); lia. }
    rewrite !S in O2. apply Z.mul_le_mono_pos_r in O2; auto.
  - exfalso. apply (number_bound f t T). unfold overflows in *. rewrite Z.abs_mul, (Z.abs_eq one) in O by lia. rewrite Z.mul_1_r.
    assert (0 < 2 * largest f + largest_step f) by (destruct f; vm_compute; reflexivity). nia.
Qed.

(** A nearest number does not pass a number. *)
Lemma nearest_above a b r w : 0 < b -> nearest f a b r -> is_number w -> fvalue f w * b <= a -> fvalue f w <= fvalue f r.
Proof. intros B [_ N] W L. specialize (N w W). nia. Qed.
Lemma nearest_under a b r w : 0 < b -> nearest f a b r -> is_number w -> a <= fvalue f w * b -> fvalue f r <= fvalue f w.
Proof. intros B [_ N] W L. specialize (N w W). nia. Qed.

(** Twice a number is a number, unless it overflows. *)
Lemma double_number a : is_number a -> (exists w, is_number w /\ fvalue f w = 2 * fvalue f a) \/ overflows f (2 * fvalue f a) 1.
Proof.
  intros A. assert (R := add_rounding f a a A A). assert (O := rounding_outcome f _ _ _ R). rewrite isfinite_eq in O.
  destruct (number_units prec emax (fprec_gt f) (fprec_lt f) a A) as (m & k & M & K & E).
  destruct (Z_le_gt_dec (k + 1) (emax - prec - emin prec emax)) as [L|L].
  - left. destruct (representable_signed prec emax (fprec_gt f) (fprec_lt f) (2 * units prec emax a) m (k + 1)) as (w & W1 & W2); [lia|lia| |].
    + rewrite Z.abs_mul, E, Z.pow_add_r by lia. change (2 ^ 1) with 2. change (Z.abs 2) with 2. ring.
    + exists w. split; auto. unfold fvalue. rewrite W2. ring.
  - assert (KE : k = emax - prec - emin prec emax) by lia. destruct (Z_lt_le_dec (2 * m) (2 ^ prec)) as [L2|L2].
    + left. destruct (representable_signed prec emax (fprec_gt f) (fprec_lt f) (2 * units prec emax a) (2 * m) k) as (w & W1 & W2); [lia|lia| |].
      * rewrite Z.abs_mul, E. change (Z.abs 2) with 2. ring.
      * exists w. split; auto. unfold fvalue. rewrite W2. ring.
    + right. apply overflows_iff. unfold too_large, fvalue. assert (S := step_pos f). assert (P := pow2_pos k ltac:(lia)). rewrite <- KE.
      rewrite !Z.abs_mul, E, (Z.abs_eq (step f)) by lia. change (Z.abs 2) with 2.
      assert (P1 : 2 ^ (prec + 1) = 2 * 2 ^ prec) by (rewrite Z.pow_add_r by (assert (T := fprec_gt f); lia); change (2 ^ 1) with 2; ring). rewrite P1.
      replace (1 * step f * ((2 * 2 ^ prec - 1) * 2 ^ k)) with ((2 * 2 ^ prec - 1) * (2 ^ k * step f)) by ring.
      replace (2 * (2 * (m * 2 ^ k * step f))) with (4 * m * (2 ^ k * step f)) by ring. apply Z.mul_le_mono_nonneg_r; [nia|lia].
Qed.

Lemma middle_numbers a b : is_number a -> is_number b -> fvalue f a <= fvalue f b ->
  let r := SFdiv prec emax (SFadd prec emax a b) (to_format f (NInt S32 2)) in
  (is_number r /\ halfway f a b r /\ fvalue f a <= fvalue f r <= fvalue f b /\ ~ overflows f (fvalue f a + fvalue f b) 1) \/
  (r = S754_infinity (fvalue f a + fvalue f b <? 0) /\ overflows f (fvalue f a + fvalue f b) 1).
Proof.
  intros A B L r. assert (R := add_rounding f a b A B). assert (O := rounding_outcome f _ _ _ R). rewrite isfinite_eq in O.
  unfold r. destruct (is_finite (SFadd prec emax a b)) eqn:F.
  - left. destruct O as [O1 O2]. assert (T : is_number (SFadd prec emax a b)) by apply O1. set (t := SFadd prec emax a b) in *.
    destruct (half_nearest t T) as [H1 H2]. split; auto. split; [exists t; auto|]. split; auto.
    assert (TL : 2 * fvalue f a <= fvalue f t).
    { destruct (double_number a A) as [(w & W1 & W2)|OV].
      - rewrite <- W2. eapply (nearest_above _ 1); eauto; lia.
      - destruct (Z_le_gt_dec 0 (fvalue f a)); [exfalso; apply O2; unfold overflows in *; lia|].
        assert (BT := number_bound f t T). unfold overflows in *. lia. }
    assert (TU : fvalue f t <= 2 * fvalue f b).
    { destruct (double_number b B) as [(w & W1 & W2)|OV].
      - rewrite <- W2. eapply (nearest_under _ 1); eauto; lia.
      - destruct (Z_le_gt_dec (fvalue f b) 0); [exfalso; apply O2; unfold overflows in *; lia|].
        assert (BT := number_bound f t T). unfold overflows in *. lia. }
    split; [eapply (nearest_above (fvalue f t) 2)|eapply (nearest_under (fvalue f t) 2)]; eauto; lia.
  - right. split; auto. destruct R as [_ [[_ E]|[_ [[_ C] _]]]]; [|congruence]. rewrite E, two_is. destruct f; destruct (_ <? 0); reflexivity.
Qed.

Lemma median_accumulates sort vs l x : accumulates (fmedian_accu f sort) l vs x -> x = l ++ vs.
Proof.
  intros A. induction A as [l|l v y vs z E A IH]; [rewrite app_nil_r; auto|].
  cbn in E. inversion E; subst y. rewrite IH, <- app_assoc. reflexivity.
Qed.
Lemma median_feeds sort vs l : accumulates (fmedian_accu f sort) l vs (l ++ vs).
Proof.
  revert l. induction vs as [|v vs IH]; intros l; [rewrite app_nil_r; constructor|].
  econstructor; [reflexivity|]. replace (l ++ v :: vs) with ((l ++ [v]) ++ vs) by (rewrite <- app_assoc; reflexivity). apply IH.
Qed.

(** ** The table of frequencies *)
Lemma eqb_same x y : is_float x -> is_float y -> SFeqb x y = same f x y.
Proof.
  intros X Y. unfold same. destruct (is_nan x) eqn:NX; [destruct x; try discriminate; reflexivity|].
  destruct (is_nan y) eqn:NY; [destruct y; try discriminate; destruct x as [|[]| |]; reflexivity|]. cbn [negb andb].
  assert (C := C63_equal f x y X Y NX NY). unfold fequal in C. apply eq_true_iff_eq. rewrite C, andb_true_iff, !Z.eqb_eq. unfold alike.
  split; intros [A B]; split; auto. destruct (Z.eq_dec (rank x) 0); auto. rewrite !infinite_value by congruence. reflexivity.
Qed.
Lemma same_sym x y : same f x y = same f y x.
Proof. unfold same. rewrite (Z.eqb_sym (rank x)), (Z.eqb_sym (fvalue f x)). destruct (is_nan x), (is_nan y); reflexivity. Qed.
Lemma same_trans x y z : same f x y = true -> same f x z = same f y z.
Proof.
  unfold same. rewrite !andb_true_iff, !negb_true_iff, !Z.eqb_eq. intros (((A & B) & C) & D). rewrite A, B, C, D. reflexivity.
Qed.
Lemma same_refl x : is_nan x = false -> same f x x = true.
Proof. intros N. unfold same. rewrite N, !Z.eqb_refl. reflexivity. Qed.

Definition tally (t : ftable) (v : spec_float) : Z := fold_right (fun p a => (if same f (fst p) v then snd p else 0) + a) 0 t.
Definition counted (vs : list spec_float) (v : spec_float) : Z := Z.of_nat (length (filter (fun w => same f w v) vs)).

Lemma tally_plus t v n u : Forall (fun p => is_float (fst p)) t -> is_float v ->
  tally (ffreq_plus t v n) u = tally t u + (if same f v u then n else 0).
Proof.
  intros T V. induction T as [|[w k] t W T IH]; cbn [ffreq_plus]; [cbn; lia|]. cbn [fst] in W. rewrite (eqb_same w v W V).
  destruct (same f w v) eqn:E; cbn [tally fold_right fst snd]; fold (tally t u); fold (tally (ffreq_plus t v n) u).
  - rewrite (same_trans w v u E). destruct (same f v u); lia.
  - rewrite IH. lia.
Qed.

(** What is known of a table: each value has one key, NaNs count as one *)
Record table_of (vs : list spec_float) (t : ftable) : Prop := {
  keys_apart : ForallOrdPairs (fun p q => same f (fst p) (fst q) = false) t;
  keys_good : Forall (fun p => In (fst p) vs /\ is_float (fst p) /\ 0 < snd p /\ (is_nan (fst p) = true -> snd p = 1)) t;
  tallies : forall v, tally t v = counted vs v;
  some_key : vs <> [] -> t <> [] }.

Lemma plus_keys t v n p : In p (ffreq_plus t v n) -> (fst p = v /\ snd p = n) \/ In p t \/ (exists k, In (fst p, k) t /\ snd p = k + n /\ SFeqb (fst p) v = true).
Proof.
  induction t as [|[w k] t IH]; cbn [ffreq_plus].
  - intros [<-|[]]. auto.
  - destruct (SFeqb w v) eqn:E.
    + intros [<-|I]; [|right; left; right; auto]. right. right. exists k. cbn. auto.
    + intros [<-|I]; [right; left; left; auto|]. destruct (IH I) as [A|[A|(j & A & B)]]; [auto|right; left; right; auto|right; right; exists j; split; [right; auto|auto]].
Qed.
Lemma plus_some t v n : ffreq_plus t v n <> [].
Proof. destruct t as [|[w k] t]; cbn [ffreq_plus]; [discriminate|]. destruct (SFeqb w v); discriminate. Qed.
Lemma merge_some t u : t <> [] \/ u <> [] -> ffreq_merge t u <> [].
Proof.
  unfold ffreq_merge. revert t. induction u as [|p u IH]; intros t H; cbn [fold_left]; [destruct H; congruence|].
  apply IH. left. apply plus_some.
Qed.
Lemma plus_apart t v n : Forall (fun p => is_float (fst p)) t -> is_float v -> ForallOrdPairs (fun p q => same f (fst p) (fst q) = false) t ->
  ForallOrdPairs (fun p q => same f (fst p) (fst q) = false) (ffreq_plus t v n).
Proof.
  intros T V H. induction H as [|[w k] t A H IH]; cbn [ffreq_plus]; [constructor; constructor|]. inversion T as [|? ? W T']; subst. cbn [fst] in *.
  rewrite (eqb_same w v W V). destruct (same f w v) eqn:E; constructor; auto. rewrite Forall_forall in *. intros p P. cbn [fst].
  destruct (plus_keys t v n p P) as [[-> _]|[I|(j & I & _)]]; [exact E|apply (A p I)|apply (A (fst p, j) I)].
Qed.
Lemma table_plus vs vs' t v n : table_of vs t -> is_float v -> 0 < n -> (is_nan v = true -> n = 1) ->
  (forall x, In x vs -> In x vs') -> In v vs' -> (forall u, counted vs' u = counted vs u + (if same f v u then n else 0)) ->
  table_of vs' (ffreq_plus t v n).
Proof.
  intros [A B C D] V N NN I I' E. assert (T : Forall (fun p => is_float (fst p)) t) by (eapply Forall_impl; [|exact B]; intros p P; apply P).
  split; [apply plus_apart; auto| |intros u; rewrite tally_plus, C, E by auto; reflexivity|intros _; apply plus_some].
  rewrite Forall_forall in *. intros p P. destruct (plus_keys t v n p P) as [[P1 P2]|[P1|(k & P1 & P2 & P3)]].
  - rewrite P1, P2. auto.
  - specialize (B p P1). destruct B as (B1 & B2 & B3 & B4). auto.
  - specialize (B _ P1). cbn [fst snd] in B. destruct B as (B1 & B2 & B3 & B4). split; auto. split; auto. split; [lia|].
    intros NP. exfalso. destruct (fst p); discriminate.
Qed.
Lemma counted_app xs ys u : counted (xs ++ ys) u = counted xs u + counted ys u.
Proof. unfold counted. rewrite filter_app, app_length. lia. Qed.
Lemma counted_one v u : counted [v] u = if same f v u then 1 else 0.
Proof. unfold counted. cbn [filter]. destruct (same f v u); reflexivity. Qed.

Lemma table_one v : is_float v -> table_of [v] [(v, 1)].
Proof.
  intros V. split; [repeat constructor| | |discriminate].
  - constructor; [|constructor]. cbn. auto with zarith.
  - intros u. rewrite counted_one. cbn [tally fold_right fst snd]. destruct (same f v u); lia.
Qed.
Lemma table_snoc vs t v : table_of vs t -> is_float v -> table_of (vs ++ [v]) (ffreq_plus t v 1).
Proof.
  intros T V. eapply table_plus; eauto; [lia|intros x X; apply in_or_app; auto|apply in_or_app; right; left; auto|].
  intros u. rewrite counted_app, counted_one. reflexivity.
Qed.
Lemma mode_accumulated order us t vs x : table_of us t -> floats f vs -> accumulates (fmode_accu order) t vs x -> table_of (us ++ vs) x.
Proof.
  intros T H A. revert us T H. induction A as [t|t v y vs z E A IH]; intros us T H; [rewrite app_nil_r; auto|].
  cbn in E. inversion E; subst y. inversion H; subst. replace (us ++ v :: vs) with ((us ++ [v]) ++ vs) by (rewrite <- app_assoc; reflexivity).
  apply IH; [apply table_snoc|]; auto.
Qed.

(** Merging adds the values of the other table one after the other: those that are the same together. *)
Lemma merge_good xs ys t u : table_of xs t -> Forall (fun p => In (fst p) ys /\ is_float (fst p) /\ 0 < snd p /\ (is_nan (fst p) = true -> snd p = 1)) u ->
  ForallOrdPairs (fun p q => same f (fst p) (fst q) = false) (ffreq_merge t u) /\
  Forall (fun p => In (fst p) (xs ++ ys) /\ is_float (fst p) /\ 0 < snd p /\ (is_nan (fst p) = true -> snd p = 1)) (ffreq_merge t u) /\
  forall v, tally (ffreq_merge t u) v = tally t v + tally u v.
Proof.
  intros [A B _ _] U. assert (B' : Forall (fun p => In (fst p) (xs ++ ys) /\ is_float (fst p) /\ 0 < snd p /\ (is_nan (fst p) = true -> snd p = 1)) t).
  { eapply Forall_impl; [|exact B]. intros p (P1 & P2). split; auto. apply in_or_app. auto. }
  clear B. unfold ffreq_merge. revert t A B'. induction U as [|[w n] u (W1 & W2 & W3 & W4) U IH]; intros t A B; cbn [fold_left fst snd].
  - split; auto. split; auto. intros v. cbn [tally fold_right]. lia.
  - cbn [fst snd] in *. assert (T : Forall (fun p => is_float (fst p)) t) by (eapply Forall_impl; [|exact B]; intros p P; apply P).
    destruct (IH (ffreq_plus t w n)) as (C1 & C2 & C3).
    + apply plus_apart; auto.
    + rewrite Forall_forall in *. intros p P. destruct (plus_keys t w n p P) as [[P1 P2]|[P1|(k & P1 & P2 & P3)]].
      * rewrite P1, P2. split; [apply in_or_app; auto|auto].
      * apply (B p P1).
      * specialize (B _ P1). cbn [fst snd] in B. destruct B as (B1 & B2 & B3 & B4). split; auto. split; auto. split; [lia|].
        intros NP. exfalso. destruct (fst p); discriminate.
    + split; auto. split; auto. intros v. rewrite C3, tally_plus by auto. cbn [tally fold_right fst snd]. fold (tally u v). lia.
Qed.
Lemma table_merge xs ys t u : table_of xs t -> table_of ys u -> table_of (xs ++ ys) (ffreq_merge t u).
Proof.
  intros T [A B C D]. destruct (merge_good xs ys t u T B) as (M1 & M2 & M3). split; auto; [intros v; rewrite M3, (tallies _ _ T), C, counted_app; reflexivity|].
  intros N. apply merge_some. destruct xs as [|x xs]; [right; apply D; exact N|left; apply (some_key _ _ T); discriminate].
Qed.

Lemma fmax_spec l : forall b, let r := fmax_element b l in (r = b \/ In r l) /\ snd b <= snd r /\ forall p, In p l -> snd p <= snd r.
Proof.
  induction l as [|p l IH]; intros b; cbn [fmax_element]; [cbn; split; auto; split; [lia|tauto]|].
  destruct (Z.ltb_spec (snd b) (snd p)) as [L|L].
  - destruct (IH p) as (A & B & C). split; [right; destruct A as [->|A]; [left|right]; auto|]. split; [lia|]. intros q [<-|Q]; auto.
  - destruct (IH b) as (A & B & C). split; [destruct A as [->|A]; auto; right; right; auto|]. split; auto. intros q [<-|Q]; auto. lia.
Qed.

Lemma tally_key t p : ForallOrdPairs (fun p q => same f (fst p) (fst q) = false) t -> In p t -> is_nan (fst p) = false -> tally t (fst p) = snd p.
Proof.
  intros H. induction H as [|q t A H IH]; intros I N; [destruct I|]. cbn [tally fold_right]. fold (tally t (fst p)). destruct I as [->|I].
  - rewrite same_refl by auto. assert (Z : tally t (fst p) = 0); [|lia]. clear - A. induction A as [|q t Q A IH]; auto.
    cbn [tally fold_right]. fold (tally t (fst p)). rewrite same_sym, Q, IH. reflexivity.
  - rewrite Forall_forall in A. rewrite (A p I). rewrite IH by auto. reflexivity.
Qed.
Lemma tally_some t v : tally t v <> 0 -> exists p, In p t /\ same f (fst p) v = true.
Proof.
  induction t as [|p t IH]; cbn [tally fold_right]; [congruence|]. fold (tally t v). intros N. destruct (same f (fst p) v) eqn:E.
  - exists p. split; auto. left. auto.
  - destruct IH as (q & Q1 & Q2); [lia|]. exists q. split; auto. right. auto.
Qed.

Lemma table_mode order vs t : table_of vs t -> Permutation (order t) t -> vs <> [] -> floats f vs ->
  exists r, ffreq_mode (order t) = Some r /\ is_fmode f vs r.
Proof.
  intros [A B C D] P N H. assert (CP : forall v, In v vs -> is_nan v = false -> 0 < counted vs v).
  { intros v V NV. unfold counted. assert (In v (filter (fun w => same f w v) vs)) by (apply filter_In; split; auto; apply same_refl; auto).
    destruct (filter (fun w => same f w v) vs); [contradiction|cbn [length]; lia]. }
  assert (EN : forall v, In v vs -> is_nan v = false -> exists p, In p t /\ same f (fst p) v = true /\ snd p = counted vs v).
  { intros v V NV. destruct (tally_some t v) as (p & P1 & P2); [rewrite C; specialize (CP v V NV); lia|]. exists p. split; auto. split; auto.
    assert (NP : is_nan (fst p) = false) by (unfold same in P2; destruct (is_nan (fst p)); auto; discriminate).
    rewrite <- (tally_key t p A P1 NP), C. unfold counted. do 2 f_equal. apply filter_ext. intros w. rewrite (same_sym w), (same_sym w). apply same_trans. auto. }
  destruct (order t) as [|p l] eqn:O.
  { exfalso. apply Permutation_nil in P. exact (D N P). }
  cbn [ffreq_mode]. exists (fst (fmax_element p l)). split; auto. destruct (fmax_spec l p) as (M1 & M2 & M3). set (r := fmax_element p l) in *.
  assert (IR : In r t) by (eapply Permutation_in; [exact P|]; destruct M1 as [->|M1]; [left|right]; auto).
  assert (MX : forall q, In q t -> snd q <= snd r) by (intros q Q; apply (Permutation_in q (Permutation_sym P)) in Q; destruct Q as [<-|Q]; auto).
  assert (GR := proj1 (Forall_forall _ _) B r IR). destruct GR as (G1 & G2 & G3 & G4).
  assert (VR : votes f vs (fst r) = snd r).
  { unfold votes. destruct (is_nan (fst r)) eqn:NR; [rewrite G4; auto|]. fold (counted vs (fst r)). rewrite <- C. apply tally_key; auto. }
  split; auto. intros v V. rewrite VR. unfold votes. destruct (is_nan v) eqn:NV; [lia|]. fold (counted vs v).
  destruct (EN v V NV) as (q & Q1 & Q2 & <-). auto.
Qed.

Lemma mode_feeds order vs t : accumulates (fmode_accu order) t vs (fold_left (fun t v => ffreq_plus t v 1) vs t).
Proof. revert t. induction vs as [|v vs IH]; intros t; cbn [fold_left]; [constructor|]. econstructor; [reflexivity|apply IH]. Qed.
End Format.
