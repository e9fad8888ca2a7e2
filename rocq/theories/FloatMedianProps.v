(** * Property C98: the median and the mode of floating point numbers *)
From Coq Require Import ZArith List Bool Lia SpecFloat Sorting.Sorted Sorting.Permutation.
From Verif Require Import LangModel IntsModel FloatModel IeeeSpec IeeeProofs FloatSpec FloatProofs FloatProps AccumModel AggModel AggSpec
  FloatAccumModel FloatAccumSpec FloatAccumProofs FloatSumSpec FloatSumProofs FloatMedianModel FloatMedianSpec FloatMedianProofs.
Import ListNotations.
Open Scope Z_scope.

Section C98.
Variable f : fmt.
Notation is_number := (is_number (fprec f) (femax f)).
Notation is_float := (is_float (fprec f) (femax f)).

Lemma median_fed sort vs x : feeds (fmedian_accu f sort) vs x -> x = vs.
Proof.
  intros F. inversion F as [us y A|v us y z E A]; subst; apply median_accumulates in A; cbn in *; [auto|].
  inversion E; subst. reflexivity.
Qed.
Lemma sorted_length vs s : in_order f vs s -> length s = length vs.
Proof. intros [P _]. symmetry. apply Permutation_length. auto. Qed.
Lemma sorted_nth vs s i j d : in_order f vs s -> (i < j < length s)%nat -> ~ below f (nth j s d) (nth i s d).
Proof.
  intros [_ Q]. revert i j. induction Q as [|x l Q IH F]; intros i j L; cbn [length] in L; [lia|].
  destruct j as [|j]; [lia|]. destruct i as [|i]; cbn [nth]; [|apply IH; lia]. rewrite Forall_forall in F. apply F. apply nth_In. lia.
Qed.
Lemma odd_length k : Nat.odd (2 * k + 1) = true /\ Nat.div (2 * k + 1) 2 = k.
Proof. split; [rewrite Nat.odd_spec; exists k; lia|symmetry; apply (Nat.div_unique _ 2 k 1); lia]. Qed.
Lemma even_length k : Nat.odd (2 * k + 2) = false /\ Nat.div (2 * k + 2) 2 = (k + 1)%nat.
Proof.
  split; [|symmetry; apply (Nat.div_unique _ 2 (k + 1) 0); lia]. rewrite <- Nat.negb_even. apply negb_false_iff. rewrite Nat.even_spec. exists (k + 1)%nat. lia.
Qed.

(** Sorting is well defined for the values, or there is no result: it takes a weak order. *)
Theorem C98_median_defined sort vs x : floats f vs -> feeds (fmedian_accu f sort) vs x ->
  (a_result (fmedian_accu f sort) x <> None <-> vs <> [] /\ weak_order f vs).
Proof.
  intros H F. apply median_fed in F. subst x. cbn [fmedian_accu a_result]. rewrite <- (sortable_iff f vs H). unfold fmedian_result.
  destruct vs as [|v vs]; [split; [congruence|intros [A _]; congruence]|]. destruct (sortable (v :: vs)).
  - split; [intros _; split; [discriminate|auto]|]. intros _. destruct (Nat.odd _); discriminate.
  - split; [congruence|]. intros [_ A]. discriminate.
Qed.

(** So a NaN beside two different numbers is undefined behaviour. *)
Theorem C98_median_nan sort vs x u v : floats f vs -> feeds (fmedian_accu f sort) vs x ->
  In S754_nan vs -> In u vs -> In v vs -> is_nan u = false -> is_nan v = false -> below f u v ->
  a_result (fmedian_accu f sort) x = None.
Proof.
  intros H F N U V NU NV B. assert (D := C98_median_defined sort vs x H F). destruct (a_result (fmedian_accu f sort) x) as [r|]; auto. exfalso.
  destruct (proj1 D ltac:(discriminate)) as [_ W]. specialize (W u S754_nan v U N V). unfold unordered in W. rewrite NU, NV in W. cbn [is_nan] in W.
  destruct W as [W|[W|W]]; auto; try discriminate. tauto.
Qed.

(** Without NaN: the value in the middle, or for an even number of values the two in the middle
    are added and halved, and both are rounded.  That lies between those two, unless their sum
    overflows: then the result is infinite. *)
Theorem C98_median sort vs x : sorts f sort -> floats f vs -> no_nan vs -> vs <> [] -> feeds (fmedian_accu f sort) vs x ->
  exists s r, in_order f vs s /\ a_result (fmedian_accu f sort) x = Some r /\
    (forall k, length vs = (2 * k + 1)%nat -> r = nth k s S754_nan) /\
    (forall k, length vs = (2 * k + 2)%nat ->
       let a := nth k s S754_nan in let b := nth (k + 1) s S754_nan in
       (is_finite a = true -> is_finite b = true ->
          (halfway f a b r /\ is_number r /\ fvalue f a <= fvalue f r <= fvalue f b /\ ~ overflows f (fvalue f a + fvalue f b) 1) \/
          (r = S754_infinity (fvalue f a + fvalue f b <? 0) /\ overflows f (fvalue f a + fvalue f b) 1)) /\
       (is_finite a = true -> is_finite b = false -> r = S754_infinity false) /\
       (is_finite a = false -> is_finite b = true -> r = S754_infinity true) /\
       (is_finite a = false -> is_finite b = false -> r = if rank a =? rank b then a else S754_nan)).
Proof.
  intros S H NN N F. apply median_fed in F. subst x. assert (O := sorted_order f sort vs S H NN). assert (L := sorted_length _ _ O).
  exists (sort vs). cbn [fmedian_accu a_result]. unfold fmedian_result. rewrite (no_nan_sortable vs NN).
  assert (FS := in_order_floats f _ _ H O). assert (NS := in_order_no_nan f _ _ NN O). destruct vs as [|v vs]; [congruence|].
  set (s := sort (v :: vs)) in *. rewrite L. destruct (Nat.odd (length (v :: vs))) eqn:OD.
  - eexists. split; [exact O|]. split; [reflexivity|]. split.
    + intros k K. rewrite K, (proj2 (odd_length k)). reflexivity.
    + intros k K. exfalso. rewrite K, (proj1 (even_length k)) in OD. discriminate.
  - eexists. split; [exact O|]. split; [reflexivity|]. split.
    + intros k K. exfalso. rewrite K, (proj1 (odd_length k)) in OD. discriminate.
    + intros k K. rewrite K, (proj2 (even_length k)). replace (k + 1 - 1)%nat with k by lia. cbv zeta. set (a := nth k s S754_nan). set (b := nth (k + 1) s S754_nan).
      assert (SB := sorted_nth _ _ k (k + 1) S754_nan O ltac:(lia)). fold a b in SB.
      assert (IA : In a s) by (apply nth_In; lia). assert (IB : In b s) by (apply nth_In; lia).
      unfold floats in FS. unfold no_nan in NS. rewrite Forall_forall in FS, NS. assert (XA := FS a IA). assert (XB := FS b IB). assert (NA := NS a IA). assert (NB := NS b IB).
      clearbody a b. split; [|split; [|split]].
      * intros FA FB. assert (LE : fvalue f a <= fvalue f b).
        { assert (RA : rank a = 0) by (destruct a; auto; discriminate). assert (RB : rank b = 0) by (destruct b; auto; discriminate). unfold below in SB. lia. }
        destruct (middle_numbers f a b (conj XA FA) (conj XB FB) LE) as [(M1 & M2 & M3 & M4)|M]; [left|right]; auto.
      * intros FA FB. destruct b as [|[]| |]; try discriminate.
        { exfalso. apply SB. left. destruct a; try discriminate; cbn [rank]; lia. }
        rewrite two_is. destruct a as [[]|[]| |[]]; try discriminate; destruct f; reflexivity.
      * intros FA FB. destruct a as [|[]| |]; try discriminate.
        2: { exfalso. apply SB. left. destruct b; try discriminate; cbn [rank]; lia. }
        rewrite two_is. destruct b as [[]|[]| |[]]; try discriminate; destruct f; reflexivity.
      * intros FA FB. rewrite two_is. destruct a as [|[]| |]; try discriminate; destruct b as [|[]| |]; try discriminate; destruct f; reflexivity.
Qed.

(** Neither the order of the values nor that of equal values after sorting matters, except for the
    sign of a zero. *)
Theorem C98_median_order sort sort' vs vs' x x' r r' :
  sorts f sort -> sorts f sort' -> floats f vs -> no_nan vs -> Permutation vs vs' ->
  feeds (fmedian_accu f sort) vs x -> feeds (fmedian_accu f sort') vs' x' ->
  a_result (fmedian_accu f sort) x = Some r -> a_result (fmedian_accu f sort') x' = Some r' ->
  r = r' \/ (exists s t, r = S754_zero s /\ r' = S754_zero t).
Proof.
  intros S S' H NN P F F'. apply median_fed in F, F'. subst x x'.
  assert (H' : floats f vs') by (unfold floats in *; rewrite Forall_forall in *; intros x X; apply H; eapply Permutation_in; [apply Permutation_sym; exact P|auto]).
  assert (NN' : no_nan vs') by (unfold no_nan in *; rewrite Forall_forall in *; intros x X; apply NN; eapply Permutation_in; [apply Permutation_sym; exact P|auto]).
  assert (O := sorted_order f sort vs S H NN). assert (O' := sorted_order f sort' vs' S' H' NN').
  assert (K := orders_alike f _ _ _ _ H P O O'). assert (L := sorted_length _ _ O). assert (L' := sorted_length _ _ O').
  assert (LP := Permutation_length P). cbn [fmedian_accu a_result]. unfold fmedian_result. rewrite (no_nan_sortable vs NN), (no_nan_sortable vs' NN').
  assert (FS := in_order_floats f _ _ H O). assert (NS := in_order_no_nan f _ _ NN O). assert (FS' := in_order_floats f _ _ H' O'). assert (NS' := in_order_no_nan f _ _ NN' O').
  unfold floats, no_nan in *. rewrite Forall_forall in FS, NS, FS', NS'.
  destruct vs as [|v vs]; [discriminate|]. destruct vs' as [|v' vs']; [discriminate|].
  set (s := sort (v :: vs)) in *. set (s' := sort' (v' :: vs')) in *. clearbody s s'. rewrite L, L', <- LP.
  assert (E : forall i, (i < length (v :: vs))%nat -> nth i s S754_nan = nth i s' S754_nan \/ both_zero (nth i s S754_nan) (nth i s' S754_nan)).
  { intros i I. assert (I1 : In (nth i s S754_nan) s) by (apply nth_In; lia). assert (I2 : In (nth i s' S754_nan) s') by (apply nth_In; lia).
    apply (key_same f); auto. apply key_nth. auto. }
  assert (LT : (Nat.div (length (v :: vs)) 2 < length (v :: vs))%nat) by (apply Nat.div_lt; cbn [length]; lia).
  destruct (Nat.odd (length (v :: vs))); intros R R'; injection R as <-; injection R' as <-.
  - apply (E _ LT).
  - apply half_same. apply plus_same; apply E; [eapply Nat.le_lt_trans; [apply Nat.le_sub_l|exact LT]|exact LT].
Qed.

(** Merging is accumulating one after the other, always. *)
Theorem C98_median_merge sort :
  merge_is_concatenation (fun _ => True) (fmedian_accu f sort) /\ always_defined (fun _ => True) (fmedian_accu f sort).
Proof.
  split; [|split].
  - intros xs ys x y z b z' _ _ A B M C. apply median_fed in A, B, C. subst. cbn in M. inversion M. auto.
  - intros xs _. exists xs. apply (median_feeds f sort xs []).
  - intros xs ys x y _ _ _ _. eexists. reflexivity.
Qed.

(** Constructed from a value, and given others: a value than which no value is there more often,
    if each NaN counts as a value of its own. *)
Theorem C98_mode order v vs : (forall t, Permutation (order t) t) -> floats f (v :: vs) ->
  exists x r, accumulates (fmode_accu order) [(v, 1)] vs x /\ a_from (fmode_accu order) v = Some [(v, 1)] /\
    a_result (fmode_accu order) x = Some r /\ is_fmode f (v :: vs) r.
Proof.
  intros P H. inversion H as [|? ? V VS]; subst. exists (fold_left (fun t v => ffreq_plus t v 1) vs [(v, 1)]).
  assert (A := mode_feeds order vs [(v, 1)]). assert (T := mode_accumulated f order [v] _ vs _ (table_one f v V) VS A).
  destruct (table_mode f order ([v] ++ vs) _ T (P _) ltac:(discriminate) H) as (r & R1 & R2). exists r. auto.
Qed.

(** So NaN is the mode only if no two values are equal. *)
Theorem C98_mode_nan vs r v : is_fmode f vs r -> is_nan r = true -> In v vs -> is_nan v = false ->
  forall us ws, vs = us ++ v :: ws -> forall w, In w (us ++ ws) -> same f w v = false.
Proof.
  intros [_ M] N V NV us ws E w W. specialize (M v V). unfold votes in M. rewrite N, NV in M. destruct (same f w v) eqn:S; auto. exfalso. subst vs.
  rewrite filter_app, app_length in M. cbn [filter] in M. rewrite (same_refl f v NV) in M. cbn [length] in M.
  assert (G : In w (filter (fun w => same f w v) us) \/ In w (filter (fun w => same f w v) ws)) by (apply in_app_or in W; destruct W; [left|right]; apply filter_In; auto).
  destruct G as [G|G]; [destruct (filter (fun w => same f w v) us)|destruct (filter (fun w => same f w v) ws)]; try contradiction; cbn [length] in M; lia.
Qed.

(** Default constructed: of those values and a zero that is not one of them. *)
Theorem C98_mode_default order vs : (forall t, Permutation (order t) t) -> floats f vs ->
  exists x r, accumulates (fmode_accu order) (a_init (fmode_accu order)) vs x /\
    a_result (fmode_accu order) x = Some r /\ is_fmode f (S754_zero false :: vs) r.
Proof.
  intros P H. destruct (C98_mode order (S754_zero false) vs P) as (x & r & A & _ & B); [constructor; [reflexivity|exact H]|]. exists x, r. auto.
Qed.

(** Merged: of the values of both. *)
Theorem C98_mode_merge order v xs w ys x y : (forall t, Permutation (order t) t) -> floats f (v :: xs) -> floats f (w :: ys) ->
  accumulates (fmode_accu order) [(v, 1)] xs x -> accumulates (fmode_accu order) [(w, 1)] ys y ->
  exists z r, a_merge (fmode_accu order) x y = Some (z, true) /\ a_result (fmode_accu order) z = Some r /\
    is_fmode f (v :: xs ++ w :: ys) r.
Proof.
  intros P H H' A B. inversion H as [|? ? V VS]; subst. inversion H' as [|? ? W WS]; subst.
  assert (T := mode_accumulated f order [v] _ xs _ (table_one f v V) VS A). assert (U := mode_accumulated f order [w] _ ys _ (table_one f w W) WS B).
  assert (M := table_merge f _ _ _ _ T U). exists (ffreq_merge x y).
  destruct (table_mode f order _ _ M (P _)) as (r & R1 & R2); [discriminate|apply Forall_app; split; auto|]. exists r. auto.
Qed.
End C98.
Print Assumptions C98_median_defined.
Print Assumptions C98_median_nan.
Print Assumptions C98_median.
Print Assumptions C98_median_order.
Print Assumptions C98_median_merge.
Print Assumptions C98_mode.
Print Assumptions C98_mode_nan.
Print Assumptions C98_mode_default.
Print Assumptions C98_mode_merge.

(** ** A concrete case *)
Definition big := S754_finite false 9007199254740991 971.
Definition num_one := S754_finite false 4503599627370496 (-52).
Definition num_two := S754_finite false 4503599627370496 (-51).
Definition num_three := S754_finite false 6755399441055744 (-51).

(** An insertion sort sorts. *)
Fixpoint put (x : spec_float) (l : list spec_float) : list spec_float :=
  match l with
  | [] => [x]
  | y :: l' => if SFltb y x then y :: put x l' else x :: y :: l'
  end.
Definition insertion (l : list spec_float) : list spec_float := fold_right put [] l.
Lemma put_perm x l : Permutation (x :: l) (put x l).
Proof.
  induction l as [|y l IH]; cbn [put]; [auto|]. destruct (SFltb y x); auto. apply perm_trans with (y :: x :: l); [constructor|]. constructor. auto.
Qed.
Lemma insertion_perm l : Permutation l (insertion l).
Proof. induction l as [|x l IH]; cbn; [auto|]. apply perm_trans with (x :: insertion l); [constructor; auto|apply put_perm]. Qed.
Lemma insertion_sorts f : sorts f insertion.
Proof.
  intros vs H W. split; [apply insertion_perm|].
  assert (WS := proj2 (sortable_iff f vs H) W). unfold sortable in WS. apply orb_true_iff in WS.
  assert (HF : forall x, In x vs -> is_float (fprec f) (femax f) x) by (apply Forall_forall; exact H).
  assert (LT : forall x y, In x vs -> In y vs -> is_nan x = false -> is_nan y = false -> SFltb x y = true <-> below f x y).
  { intros x y X Y NX NY. destruct (compare_order f x y (HF x X) (HF y Y) NX NY) as (c & C1 & C2). unfold SFltb. rewrite C1.
    destruct (order_exclusive f x y) as (O1 & O2 & O3). destruct c; split; intros Q; try discriminate; auto; tauto. }
  destruct WS as [N|N].
  - rewrite negb_true_iff in N.
    assert (NN : forall w, In w vs -> is_nan w = false) by (intros w I; destruct (is_nan w) eqn:E; auto; exfalso; assert (existsb is_nan vs = true) by (apply existsb_exists; eauto); congruence).
    assert (G : forall l, (forall x, In x l -> In x vs) -> StronglySorted (fun x y => ~ below f y x) (insertion l)).
    { induction l as [|x l IH]; intros I; [constructor|]. cbn [insertion fold_right]. fold (insertion l).
      assert (IL : forall y, In y (insertion l) -> In y vs) by (intros y Y; apply I; right; eapply Permutation_in; [apply Permutation_sym; apply insertion_perm|exact Y]).
      assert (X := I x (or_introl eq_refl)). specialize (IH (fun y Y => I y (or_intror Y))). revert IH IL. generalize (insertion l) as k. clear - X LT NN HF. intros k IH IL.
      induction IH as [|y l S IH' F]; cbn [put]; [repeat constructor|]. assert (Y := IL y (or_introl eq_refl)).
      destruct (SFltb y x) eqn:B.
      - assert (YX : below f y x) by (apply (LT y x Y X (NN y Y) (NN x X)); exact B). constructor; [apply IH'; intros z Z; apply IL; right; exact Z|].
        rewrite Forall_forall in *. intros z Z. apply (Permutation_in z (Permutation_sym (put_perm x l))) in Z. destruct Z as [<-|Z]; [|apply F; exact Z].
        rewrite !(below_key f) in * by auto. lia.
      - assert (YX : ~ below f y x) by (intros C; apply (LT y x Y X (NN y Y) (NN x X)) in C; rewrite B in C; discriminate).
        constructor; [constructor; auto|]. constructor; auto. rewrite Forall_forall in *. intros z Z. specialize (F z Z). assert (ZV := IL z (or_intror Z)).
        rewrite !(below_key f) in * by auto. lia. }
    specialize (G vs (fun x X => X)). induction G as [|x l S IH F]; constructor; auto. eapply Forall_impl; [|exact F]. intros y Y. right. right. exact Y.
  - assert (G : forall l, (forall x, In x l -> In x vs) -> StronglySorted (fun x y => is_nan x = true \/ is_nan y = true \/ ~ below f y x) l).
    { induction l as [|x l IH]; intros I; constructor; [apply IH; intros y Y; apply I; right; exact Y|]. apply Forall_forall. intros y Y.
      destruct (is_nan x) eqn:NX; auto. destruct (is_nan y) eqn:NY; auto. right. right. intros B. rewrite forallb_forall in N.
      assert (X' := I x (or_introl eq_refl)). assert (Y' := I y (or_intror Y)). specialize (N y Y'). rewrite forallb_forall in N. specialize (N x X').
      apply (LT y x Y' X' NY NX) in B. rewrite B in N. discriminate. }
    apply G. intros x X. eapply Permutation_in; [apply Permutation_sym; apply insertion_perm|exact X].
Qed.

Example C98_case :
  let vs := [num_three; num_one; S754_infinity false; num_one; S754_zero true] in
  sorts Double insertion /\ floats Double vs /\ no_nan vs /\ feeds (fmedian_accu Double insertion) vs vs /\
  a_result (fmedian_accu Double insertion) vs = Some num_one /\
  a_result (fmedian_accu Double insertion) [num_three; num_one; S754_infinity false; S754_zero true] = Some num_two /\
  feeds (fmedian_accu Double insertion) [num_one; S754_nan; num_two] [num_one; S754_nan; num_two] /\ below Double num_one num_two /\
  is_fmode Double [num_three; num_one; S754_nan; num_one; S754_nan; S754_nan] num_one /\
  is_fmode Double [S754_nan; num_one] S754_nan.
Proof.
  split; [apply insertion_sorts|]. split; [repeat constructor|]. split; [repeat constructor|].
  split; [apply fed_default; apply (median_feeds Double insertion _ [])|]. split; [vm_compute; reflexivity|]. split; [vm_compute; reflexivity|].
  split; [apply fed_default; apply (median_feeds Double insertion _ [])|].
  split; [right; vm_compute; auto|]. split.
  - split; [right; left; reflexivity|]. intros v [<-|[<-|[<-|[<-|[<-|[<-|[]]]]]]]; vm_compute; discriminate.
  - split; [left; reflexivity|]. intros v [<-|[<-|[]]]; vm_compute; discriminate.
Qed.

(** "The median lies between the smallest and the largest value": that of two large numbers is
    infinite, however they are sorted. *)
Theorem C98_median_refuted :
  floats Double [big; big] /\ no_nan [big; big] /\
  forall sort x, sorts Double sort -> feeds (fmedian_accu Double sort) [big; big] x ->
    a_result (fmedian_accu Double sort) x = Some (S754_infinity false).
Proof.
  assert (H : floats Double [big; big]) by (repeat constructor). assert (N : no_nan [big; big]) by (repeat constructor).
  split; auto. split; auto. intros sort x S F.
  destruct (C98_median Double sort _ x S H N ltac:(discriminate) F) as (s & r & [P _] & R & _ & E). specialize (E 0%nat eq_refl).
  assert (A : forall i, (i < 2)%nat -> nth i s S754_nan = big).
  { intros i I. assert (G : In (nth i s S754_nan) s) by (apply nth_In; rewrite <- (Permutation_length P); exact I).
    apply (Permutation_in _ (Permutation_sym P)) in G. destruct G as [G|[G|[]]]; symmetry; exact G. }
  cbv zeta in E. rewrite !A in E by (cbn; lia). destruct E as [E _]. destruct (E eq_refl eq_refl) as [(_ & _ & _ & O)|[O _]].
  - exfalso. apply O. unfold overflows. vm_compute. discriminate.
  - rewrite R, O. reflexivity.
Qed.
Print Assumptions C98_median_refuted.

(** "The mode is the value that is there most": three of five values are NaN, the mode is the number
    that is there twice, whatever the order in which the table is visited. *)
Theorem C98_mode_refuted :
  let vs := [S754_nan; num_one; S754_nan; num_one] in
  forall order x, (forall t, Permutation (order t) t) -> accumulates (fmode_accu order) [(S754_nan, 1)] vs x ->
    a_result (fmode_accu order) x = Some num_one.
Proof.
  intros vs order x P A. destruct (C98_mode Double order S754_nan vs P) as (y & r & Y & _ & R & M); [repeat constructor|].
  assert (E : x = y).
  { clear - A Y. revert A Y. generalize [(S754_nan, 1)] as t. generalize vs as l. induction l as [|v l IH]; intros t A Y; inversion A; inversion Y; subst; auto.
    cbn in *. eapply IH; [eassumption|]. congruence. }
  subst y. rewrite R. f_equal. destruct M as [I M]. specialize (M num_one (or_intror (or_intror (or_introl eq_refl)))).
  destruct I as [<-|[<-|[<-|[<-|[<-|[]]]]]]; auto; exfalso; revert M; vm_compute; intros M; apply M; reflexivity.
Qed.
Print Assumptions C98_mode_refuted.

(** "A default constructed mode that is given one value has that value": it can have zero. *)
Theorem C98_mode_default_refuted :
  exists x, accumulates (fmode_accu (fun t => t)) (a_init (fmode_accu (fun t => t))) [num_one] x /\
    a_result (fmode_accu (fun t => t)) x = Some (S754_zero false).
Proof. exists (ffreq_plus [(S754_zero false, 1)] num_one 1). split; [apply (mode_feeds (fun t => t) [num_one])|reflexivity]. Qed.
Print Assumptions C98_mode_default_refuted.
