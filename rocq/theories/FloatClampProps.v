(** * Property C99: clamping floating point numbers *)
From Coq Require Import ZArith List Bool Lia SpecFloat.
From Verif Require Import LangModel LangProofs ConcModel IndexSpec LoopModel LoopSpec PolicyModel LocalModel LocalSpec LocalProps ExampleMem
  IntsModel FloatModel IeeeSpec IeeeProofs RoundProofs FloatSpec FloatProofs FloatProps CoreModel CoreSpec CoreProps FloatMedianProofs FloatClampModel FloatClampSpec FloatClampProofs.
Import ListNotations.
Open Scope Z_scope.

Section C99.
Variables (f : fmt) (ip0 ip1 ip2 : inpol spec_float) (op : outpol spec_float) (a lo hi rb : buf) (m : mem spec_float).
Hypothesis Hm : marks_result op rb.

(** Rasters, with bounds that are rasters or (one of them) a scalar: each element is no-data, or moved
    into its bounds. *)
Theorem C99_rasters rows cols :
  0 <= rows -> 0 <= cols ->
  ((forall i, 0 <= i < rows * cols -> element_bounded f ip0 ip1 ip2 op a lo hi rb m i i i) ->
   exists o, computes_2d (clamp_2d_2d_2d float_less ip0 ip1 ip2 op a lo hi rb cols) op rb rows cols o m /\
     forall i, 0 <= i < rows * cols -> element_moved f ip0 a lo hi m (o i) i i i) /\
  (hi <> rb -> policy_apart ip2 op rb ->
   (forall i, 0 <= i < rows * cols -> element_bounded f ip0 ip1 ip2 op a lo hi rb m i i 0) ->
   exists o, computes_2d (clamp_2d_2d_0d float_less ip0 ip1 ip2 op a lo hi rb cols) op rb rows cols o m /\
     forall i, 0 <= i < rows * cols -> element_moved f ip0 a lo hi m (o i) i i 0) /\
  (lo <> rb -> policy_apart ip1 op rb ->
   (forall i, 0 <= i < rows * cols -> element_bounded f ip0 ip1 ip2 op a lo hi rb m i 0 i) ->
   exists o, computes_2d (clamp_2d_0d_2d float_less ip0 ip1 ip2 op a lo hi rb cols) op rb rows cols o m /\
     forall i, 0 <= i < rows * cols -> element_moved f ip0 a lo hi m (o i) i 0 i).
Proof.
  intros Hr Hc. split; [|split].
  - intros H. destruct (C33_clamp_2d_2d_2d float_less ip0 ip1 ip2 op a lo hi rb m less_irrefl rows cols Hr Hc Hm) as (o & C & R).
    + intros i I. eapply bounded_clampable; eauto.
    + exists o. split; auto. intros i I. eapply result_moved; eauto.
  - intros A1 A2 H. destruct (C33_clamp_2d_2d_0d float_less ip0 ip1 ip2 op a lo hi rb m less_irrefl rows cols Hr Hc Hm A1 A2) as (o & C & R).
    + intros i I. eapply bounded_clampable; eauto.
    + exists o. split; auto. intros i I. eapply result_moved; eauto.
  - intros A1 A2 H. destruct (C33_clamp_2d_0d_2d float_less ip0 ip1 ip2 op a lo hi rb m less_irrefl rows cols Hr Hc Hm A1 A2) as (o & C & R).
    + intros i I. eapply bounded_clampable; eauto.
    + exists o. split; auto. intros i I. eapply result_moved; eauto.
Qed.

(** Arrays; with a scalar bound only sequentially, since the other does not compile. *)
Theorem C99_arrays size :
  0 <= size ->
  ((forall i, 0 <= i < size -> element_bounded f ip0 ip1 ip2 op a lo hi rb m i i i) ->
   exists o, computes_1d (clamp_1d_1d_1d float_less ip0 ip1 ip2 op a lo hi rb) op rb size o m /\
     forall i, 0 <= i < size -> element_moved f ip0 a lo hi m (o i) i i i) /\
  (hi <> rb -> policy_apart ip2 op rb ->
   (forall i, 0 <= i < size -> element_bounded f ip0 ip1 ip2 op a lo hi rb m i i 0) ->
   exists o, computes (clamp_1d_1d_0d float_less ip0 ip1 ip2 op a lo hi rb (whole1 size)) op rb size o m /\
     forall i, 0 <= i < size -> element_moved f ip0 a lo hi m (o i) i i 0) /\
  (lo <> rb -> policy_apart ip1 op rb ->
   (forall i, 0 <= i < size -> element_bounded f ip0 ip1 ip2 op a lo hi rb m i 0 i) ->
   exists o, computes (clamp_1d_0d_1d float_less ip0 ip1 ip2 op a lo hi rb (whole1 size)) op rb size o m /\
     forall i, 0 <= i < size -> element_moved f ip0 a lo hi m (o i) i 0 i).
Proof.
  intros Hs. split; [|split].
  - intros H. destruct (C33_clamp_1d_1d_1d float_less ip0 ip1 ip2 op a lo hi rb m less_irrefl size Hs Hm) as (o & C & R).
    + intros i I. eapply bounded_clampable; eauto.
    + exists o. split; auto. intros i I. eapply result_moved; eauto.
  - intros A1 A2 H. destruct (C33_clamp_1d_1d_0d float_less ip0 ip1 ip2 op a lo hi rb m less_irrefl size Hs Hm A1 A2) as (o & C & R).
    + intros i I. eapply bounded_clampable; eauto.
    + exists o. split; auto. intros i I. eapply result_moved; eauto.
  - intros A1 A2 H. destruct (C33_clamp_1d_0d_1d float_less ip0 ip1 ip2 op a lo hi rb m less_irrefl size Hs Hm A1 A2) as (o & C & R).
    + intros i I. eapply bounded_clampable; eauto.
    + exists o. split; auto. intros i I. eapply result_moved; eauto.
Qed.

Theorem C99_scalars :
  element_bounded f ip0 ip1 ip2 op a lo hi rb m 0 0 0 ->
  (nd_at ip0 m 0 = true -> readable ip1 m 0 /\ readable ip2 m 0 /\ nd_at ip1 m 0 = false /\ nd_at ip2 m 0 = false) ->
  exists o, computes (clamp_0d_0d_0d float_less ip0 ip1 ip2 op a lo hi rb) op rb 1 (fun _ => o) m /\
    element_moved f ip0 a lo hi m o 0 0 0.
Proof.
  intros H N. destruct (C33_clamp_0d_0d_0d float_less ip0 ip1 ip2 op a lo hi rb m less_irrefl Hm) as (o & C & R); auto.
  - eapply bounded_clampable; eauto.
  - exists o. split; auto. eapply result_moved; eauto.
Qed.

(** Bounds in the wrong order fail an assertion. *)
Theorem C99_order l h :
  readable ip0 m 0 -> nd_at ip0 m 0 = false -> readable ip1 m 0 -> readable ip2 m 0 ->
  mval m lo 0 = Some l -> mval m hi 0 = Some h -> is_float (fprec f) (femax f) l -> is_float (fprec f) (femax f) h ->
  ~ bounds_order f l h ->
  run (clamp_0d_0d_0d float_less ip0 ip1 ip2 op a lo hi rb) m = None.
Proof.
  intros R0 N0 R1 R2 El Eh L H B. eapply C33_invalid_bounds; eauto. right. right.
  destruct (is_nan l) eqn:NL; [exfalso; apply B; left; exact NL|]. destruct (is_nan h) eqn:NH; [exfalso; apply B; right; left; exact NH|].
  destruct (float_less h l) eqn:E; auto. exfalso. apply B. right. right. intros Q. apply (less_below f) in Q; auto. congruence.
Qed.
End C99.
Print Assumptions C99_rasters.
Print Assumptions C99_arrays.
Print Assumptions C99_scalars.
Print Assumptions C99_order.

Section Values.
Variable f : fmt.
Notation is_float := (is_float (fprec f) (femax f)).

Lemma below_dec x y : is_float x -> is_float y -> below f x y \/ ~ below f x y.
Proof. intros X Y. rewrite (below_key f x y X Y). destruct (Z_lt_ge_dec (key f x) (key f y)); [left|right]; lia. Qed.

(** There is one such result, and it is the element or one of its bounds: nothing is rounded. *)
Theorem C99_unique v l h r r' : is_float v -> is_float l -> is_float h -> moved f v l h r -> moved f v l h r' -> r = r' /\ (r = v \/ r = l \/ r = h).
Proof.
  intros V L H [A1 A2] [B1 B2]. destruct (is_nan v) eqn:N; [rewrite A1, B1 by auto; auto|]. destruct (A2 eq_refl) as (A3 & A4 & A5). destruct (B2 eq_refl) as (B3 & B4 & B5).
  assert (DL : (is_nan l = false /\ below f v l) \/ (is_nan l = true \/ ~ below f v l)) by (destruct (is_nan l); auto; destruct (below_dec v l V L); auto).
  assert (DH : (is_nan h = false /\ below f h v) \/ (is_nan h = true \/ ~ below f h v)) by (destruct (is_nan h); auto; destruct (below_dec h v H V); auto).
  destruct DL as [[NL Q]|DL]; [rewrite A3, B3 by auto; auto|]. destruct DH as [[NH Q]|DH]; [rewrite A4, B4 by auto; auto|]. rewrite A5, B5 by auto. auto.
Qed.

(** Within the bounds, whatever else is NaN. *)
Theorem C99_within v l h r : is_float v -> is_float l -> is_float h -> is_nan v = false -> bounds_order f l h -> moved f v l h r ->
  (is_nan l = false -> ~ below f r l) /\ (is_nan h = false -> ~ below f h r).
Proof.
  intros V L H N B [_ A]. destruct (A N) as (A1 & A2 & A3).
  assert (DL : (is_nan l = false /\ below f v l) \/ (is_nan l = true \/ ~ below f v l)) by (destruct (is_nan l); auto; destruct (below_dec v l V L); auto).
  assert (DH : (is_nan h = false /\ below f h v) \/ (is_nan h = true \/ ~ below f h v)) by (destruct (is_nan h); auto; destruct (below_dec h v H V); auto).
  destruct DL as [[NL Q]|DL].
  - rewrite (A1 NL Q). split; intros NN; [rewrite (below_key f) by auto; lia|]. destruct B as [B|[B|B]]; congruence || exact B.
  - destruct DH as [[NH Q]|DH].
    + rewrite (A2 NH Q). split; intros NN; [destruct B as [B|[B|B]]; congruence || exact B|rewrite (below_key f) by auto; lia].
    + rewrite (A3 DL DH). split; intros NN; [destruct DL as [E|E]|destruct DH as [E|E]]; congruence || exact E.
Qed.

(** Clamping again changes nothing. *)
Theorem C99_again v l h r : is_float v -> is_float l -> is_float h -> bounds_order f l h -> moved f v l h r -> moved f r l h r.
Proof.
  intros V L H B M. destruct (is_nan v) eqn:N.
  - assert (E : r = v) by exact (proj1 M N). subst r. exact M.
  - destruct (C99_within v l h r V L H N B M) as [W1 W2]. split; auto. intros NR. split; [|split]; auto; intros NN Q; exfalso; [exact (W1 NN Q)|exact (W2 NN Q)].
Qed.

(** The order of values is kept. *)
Theorem C99_monotone v v' l h r r' : is_float v -> is_float v' -> is_float l -> is_float h -> is_nan v = false -> is_nan v' = false ->
  bounds_order f l h -> moved f v l h r -> moved f v' l h r' -> ~ below f v' v -> ~ below f r' r.
Proof.
  intros V V' L H N N' B [_ A] [_ A'] O. destruct (A N) as (A1 & A2 & A3). destruct (A' N') as (B1 & B2 & B3).
  assert (DL : forall x, is_float x -> (is_nan l = false /\ below f x l) \/ (is_nan l = true \/ ~ below f x l)) by (intros x X; destruct (is_nan l); auto; destruct (below_dec x l X L); auto).
  assert (DH : forall x, is_float x -> (is_nan h = false /\ below f h x) \/ (is_nan h = true \/ ~ below f h x)) by (intros x X; destruct (is_nan h); auto; destruct (below_dec h x H X); auto).
  unfold bounds_order in B. specialize (DL v V) as DL1. specialize (DL v' V') as DL2. specialize (DH v V) as DH1. specialize (DH v' V') as DH2. clear DL DH.
  destruct DL1 as [[NL Q]|DL1].
  - rewrite (A1 NL Q). destruct DL2 as [[_ Q']|DL2]; [rewrite (B1 NL Q'), (below_key f) by auto; lia|].
    destruct DH2 as [[NH Q']|DH2]; [rewrite (B2 NH Q'); destruct B as [B|[B|B]]; congruence || exact B|]. rewrite (B3 DL2 DH2). destruct DL2 as [E|E]; congruence || exact E.
  - destruct DL2 as [[NL Q']|DL2].
    + exfalso. destruct DL1 as [E|E]; [congruence|]. rewrite !(below_key f) in * by auto. lia.
    + destruct DH1 as [[NH Q]|DH1].
      * rewrite (A2 NH Q). destruct DH2 as [[_ Q']|DH2]; [rewrite (B2 NH Q'), (below_key f) by auto; lia|].
        exfalso. destruct DH2 as [E|E]; [congruence|]. rewrite !(below_key f) in * by auto. lia.
      * rewrite (A3 DL1 DH1). destruct DH2 as [[NH Q']|DH2]; [rewrite (B2 NH Q'); destruct DH1 as [E|E]; congruence || exact E|]. rewrite (B3 DL2 DH2). exact O.
Qed.

(** Infinite bounds, and bounds that are NaN, are none. *)
Theorem C99_unbounded v l h r : is_float v -> l = S754_infinity true \/ l = S754_nan -> h = S754_infinity false \/ h = S754_nan -> moved f v l h r -> r = v.
Proof.
  intros V L H [A1 A2]. destruct (is_nan v) eqn:N; auto. destruct (A2 eq_refl) as (_ & _ & A). 
  assert (RV : -1 <= rank v <= 1) by apply rank_range. apply A.
  - destruct L as [-> | ->]; auto. right. unfold below. cbn [rank]. lia.
  - destruct H as [-> | ->]; auto. right. unfold below. cbn [rank]. lia.
Qed.

(** The sign is 1 for what is not less than zero, minus zero included, and -1 for the others, NaN included. *)
Theorem C99_sign x : is_float x ->
  float_sign x = if is_nan x then -1 else if (rank x <? 0) || ((rank x =? 0) && (fvalue f x <? 0)) then -1 else 1.
Proof.
  intros X. unfold float_sign. destruct x as [s|[]| |s m e]; try reflexivity.
  assert (P := step_pos f). cbn [is_nan rank]. unfold fvalue. change (0 <? 0) with false. cbn [orb andb Z.eqb].
  assert (Q : 0 < 2 ^ (e - emin (fprec f) (femax f))) by (apply Z.pow_pos_nonneg; [lia|]; destruct (canonical (fprec f) (femax f) _ _ _ X); lia).
  assert (Q1 : 0 < Zpos m * 2 ^ (e - emin (fprec f) (femax f)) * step f) by (apply Z.mul_pos_pos; [apply Z.mul_pos_pos; [lia|exact Q]|exact P]).
  destruct s; unfold SFleb; cbn [SFcompare units]; destruct (Z.ltb_spec 0 0); try lia;
    match goal with |- context [?a <? 0] => destruct (Z.ltb_spec a 0) end; cbn; lia || reflexivity.
Qed.
End Values.
Print Assumptions C99_unique.
Print Assumptions C99_within.
Print Assumptions C99_again.
Print Assumptions C99_monotone.
Print Assumptions C99_unbounded.
Print Assumptions C99_sign.

(** ** A concrete case *)
Definition c_one := S754_finite false 4503599627370496 (-52).
Definition c_two := S754_finite false 4503599627370496 (-51).
Definition c_three := S754_finite false 6755399441055744 (-51).
Definition c_mem : mem spec_float :=
  mem_of [[c_three; S754_nan; S754_infinity true; c_three]; [c_one; c_one; c_one; S754_nan]; [c_two]; [c_one; c_one; c_one; c_one]]
         [[false; false; false; true]; []; []; [false; false; false; false]].

(** Above, NaN, below and no-data; the upper bound is a scalar. *)
Example C99_case :
  marks_result (V := spec_float) (MarkByMask 3 true) 3 /\
  (forall i, 0 <= i < 2 * 2 -> element_bounded Double (DetectByMask 0 true) SkipNoData SkipNoData (MarkByMask 3 true) 0 1 2 3 c_mem i i 0) /\
  let r := run (clamp_2d_2d_0d float_less (DetectByMask 0 true) SkipNoData SkipNoData (MarkByMask 3 true) 0 1 2 3 2 (whole2 2 2)) c_mem in
  values_of r 3 4 = [Some c_two; Some S754_nan; Some c_one; Some c_one] /\
  mask_of r 3 4 = [Some false; Some false; Some false; Some true] /\
  ~ bounds_order Double c_two c_one /\ float_sign (S754_zero true) = 1 /\ float_sign S754_nan = -1.
Proof.
  split; [exact I|]. split.
  - intros i Hi. assert (C : i = 0 \/ i = 1 \/ i = 2 \/ i = 3) by lia.
    destruct C as [-> | [-> | [-> | ->]]]; (split; [split; discriminate|split; [split; discriminate|split]]);
      try (intros v E; vm_compute in E; try discriminate; injection E as <-; vm_compute; auto; fail);
      cbn; try discriminate; intros _; (split; [exact I|split; [exact I|]]);
      exists c_one, c_two; (split; [reflexivity|split; [reflexivity|split; [reflexivity|split; [reflexivity|]]]]);
      right; right; unfold below; vm_compute; intuition discriminate.
  - split; [vm_compute; reflexivity|]. split; [vm_compute; reflexivity|]. split; [|split; reflexivity].
    intros [E|[E|E]]; try discriminate. apply E. right. vm_compute. auto.
Qed.

(** "Each element ends up between the bounds, or an assertion fails": with a lower bound that is NaN
    the element is left alone, and NaN itself is as well. *)
Theorem C99_nan_refuted :
  moved Double c_three S754_nan S754_nan c_three /\ bounds_order Double S754_nan S754_nan /\
  moved Double S754_nan c_one c_two S754_nan /\ bounds_order Double c_one c_two /\
  forall (v : spec_float), In v [c_three; S754_nan] ->
    let b := if is_nan v then (c_one, c_two) else (S754_nan, S754_nan) in
    values_of (run (clamp_0d_0d_0d float_less SkipNoData SkipNoData SkipNoData DontMarkNoData 0 1 2 3)
      (mem_of [[v]; [fst b]; [snd b]; [c_one]] [])) 3 1 = [Some v].
Proof.
  split; [split; [discriminate|]; intros _; repeat split; auto; discriminate|]. split; [left; reflexivity|].
  split; [split; [reflexivity|discriminate]|]. split; [right; right; unfold below; vm_compute; intuition discriminate|].
  intros v [<-|[<-|[]]]; vm_compute; reflexivity.
Qed.
Print Assumptions C99_nan_refuted.
