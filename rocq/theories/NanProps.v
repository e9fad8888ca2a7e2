(** * Property C100: no-data values that are floating point numbers *)
From Coq Require Import ZArith List Bool Lia SpecFloat.
From Verif Require Import LangModel LangProofs ConcModel IndexSpec IndexProofs LoopModel LoopSpec PolicyModel LocalModel LocalSpec LocalProps ExampleMem
  IntsModel FloatModel IeeeSpec FloatSpec FloatProofs FloatProps NanModel NanSpec NanProofs.
Import ListNotations.
Open Scope Z_scope.

Section C100.
Variable f : fmt.
Notation is_float := (is_float (fprec f) (femax f)).

(** An element is no-data exactly if it has the no-data value, and neither is NaN. *)
Theorem C100_detect nd b (m : mem spec_float) i v : is_float nd -> is_float v -> mval m b i = Some v ->
  exists x, run (is_no_data (detect_value nd b) i) m = Some (x, m) /\ (x = true <-> matches f v nd).
Proof.
  intros N V E. exists (SFeqb v nd). split; [|apply eqb_matches; auto]. cbn. rewrite E. reflexivity.
Qed.

(** So if the no-data value is NaN nothing is. *)
Theorem C100_nan b (m : mem spec_float) i v : mval m b i = Some v -> run (is_no_data (detect_value S754_nan b) i) m = Some (false, m).
Proof. intros E. cbn. rewrite E. rewrite eqb_nan by auto. reflexivity. Qed.

(** After any operation that marks with the no-data value: the elements that are marked are found,
    unless it is NaN, and besides those the values that happen to be the no-data value. *)
Theorem C100_result nd rb n p out (m : mem spec_float) :
  is_float nd -> (forall i r, 0 <= i < n -> out i = Value r -> is_float r) ->
  (forall i, 0 <= i < n -> mval m rb i <> None) ->
  computes p (mark_value nd rb) rb n out m ->
  exists m', run p m = Some (tt, m') /\
    forall i, 0 <= i < n -> (nd_at (detect_value nd rb) m' i = true <-> found f nd (out i)).
Proof.
  intros N R E (m' & P & H & _). exists m'. split; auto. intros i I. eapply found_at; eauto.
Qed.

Section Chain.
Variables (g1 g2 : spec_float -> spec_float) (dom1 dom2 : spec_float -> bool) (rng1 rng2 : spec_float -> spec_float -> bool).
Variables (ip : inpol spec_float) (a b c : buf) (op : outpol spec_float) (m : mem spec_float) (rows cols : Z) (nd : spec_float).
Hypothesis Hr : 0 <= rows.
Hypothesis Hc : 0 <= cols.
Hypothesis Hab : a <> b.
Hypothesis Hbc : b <> c.
Hypothesis Hm : marks_result op c.
Hypothesis Hnd : is_float nd.
Hypothesis Hop : mask_buffer op = None \/ forall k, mask_buffer op = Some k -> forall i, 0 <= i < rows * cols -> mmsk m k i <> None.
Hypothesis Hex : forall i, 0 <= i < rows * cols -> arg_exists ip a m i /\ mval m b i <> None /\ mval m c i <> None.
Hypothesis Hg : forall x, is_float x -> is_float (g1 x).
Hypothesis Hf : forall i v, 0 <= i < rows * cols -> mval m a i = Some v -> is_float v.
Let out i := unary_outcome g1 dom1 rng1 (arg_at ip a m i).

Lemma out_float i r : 0 <= i < rows * cols -> out i = Value r -> is_float r.
Proof.
  intros I E. unfold out, unary_outcome in E. destruct (arg_at ip a m i) as [v|] eqn:A; [|discriminate]. destruct (dom1 v); [|discriminate].
  destruct (rng1 v (g1 v)); [|discriminate]. injection E as <-. apply Hg. apply (Hf i); auto. unfold arg_at in A. destruct (nd_at ip m i); [discriminate|auto].
Qed.
Lemma chain_step : exists m1,
  run (unary_2d g1 dom1 rng1 ip (mark_value nd b) a b cols (whole2 rows cols)) m = Some (tt, m1) /\
  (forall i, 0 <= i < rows * cols -> (nd_at (detect_value nd b) m1 i = true <-> found f nd (out i)) /\
     mval m1 b i = Some (match out i with Value r => r | _ => nd end)) /\
  computes (unary_2d g2 dom2 rng2 (detect_value nd b) op b c cols (whole2 rows cols)) op c (rows * cols)
    (fun i => unary_outcome g2 dom2 rng2 (arg_at (detect_value nd b) b m1 i)) m1.
Proof.
  destruct (C06_unary_2d g1 dom1 rng1 ip (mark_value nd b) a b m rows cols Hr Hc eq_refl Hab) as (m1 & P & H & C1 & C2).
  { intros i I. destruct (Hex i I) as (E1 & E2 & _). split; [exact E1|]. split; [exact E2|exact Logic.I]. }
  exists m1. split; auto.
  assert (K : forall i, 0 <= i < rows * cols -> (nd_at (detect_value nd b) m1 i = true <-> found f nd (out i)) /\
     mval m1 b i = Some (match out i with Value r => r | _ => nd end)).
  { intros i I. apply (found_at f nd b m m1 i (out i)); [exact Hnd|intros r; apply out_float; exact I|apply Hex; exact I|apply H; exact I]. }
  split; auto. apply C06_unary_2d; auto. intros i I. destruct (K i I) as [_ K2]. split.
  - split; [cbn [readable detect_value]|]; rewrite K2; discriminate.
  - split; [rewrite C1 by auto; apply Hex; auto|]. destruct op as [|k x|k x]; auto. rewrite C2 by (left; discriminate).
    destruct Hop as [Q|Q]; [discriminate|]. apply (Q k eq_refl); auto.
Qed.

(** Two operations after each other, of which the second detects what the first marks: no-data
    stays no-data, and values are passed on, if the no-data value is not NaN and not a result. *)
Theorem C100_chain :
  is_nan nd = false -> (forall i r, 0 <= i < rows * cols -> out i = Value r -> ~ matches f r nd) ->
  exists m1, run (unary_2d g1 dom1 rng1 ip (mark_value nd b) a b cols (whole2 rows cols)) m = Some (tt, m1) /\
  exists out2, computes (unary_2d g2 dom2 rng2 (detect_value nd b) op b c cols (whole2 rows cols)) op c (rows * cols) out2 m1 /\
    forall i, 0 <= i < rows * cols ->
      out2 i = match out i with Value r => unary_outcome g2 dom2 rng2 (Some r) | _ => NoData end.
Proof.
  intros NN F. destruct chain_step as (m1 & P & K & C). exists m1. split; auto. eexists. split; [exact C|]. cbv beta. intros i I.
  destruct (K i I) as [K1 K2]. unfold arg_at. destruct (out i) as [|r|r] eqn:O; cbn [found] in K1.
  - rewrite (proj2 K1 NN). reflexivity.
  - destruct (nd_at (detect_value nd b) m1 i) eqn:E; [exfalso; apply (F i r I O); apply K1; reflexivity|]. rewrite K2. reflexivity.
  - rewrite (proj2 K1 NN). reflexivity.
Qed.

(** If it is NaN, no-data is lost: the second operation takes NaN for a value. *)
Theorem C100_nan_chain :
  nd = S754_nan ->
  exists m1, run (unary_2d g1 dom1 rng1 ip (mark_value nd b) a b cols (whole2 rows cols)) m = Some (tt, m1) /\
  exists out2, computes (unary_2d g2 dom2 rng2 (detect_value nd b) op b c cols (whole2 rows cols)) op c (rows * cols) out2 m1 /\
    forall i, 0 <= i < rows * cols ->
      out2 i = unary_outcome g2 dom2 rng2 (Some (match out i with Value r => r | _ => S754_nan end)).
Proof.
  intros NN. destruct chain_step as (m1 & P & K & C). exists m1. split; auto. eexists. split; [exact C|]. cbv beta. intros i I.
  destruct (K i I) as [K1 K2]. unfold arg_at. destruct (nd_at (detect_value nd b) m1 i) eqn:E.
  - exfalso. cbn [nd_at detect_value] in E. rewrite K2, eqb_nan in E by (right; rewrite NN; reflexivity). discriminate.
  - rewrite K2, NN. destruct (out i); reflexivity.
Qed.
End Chain.
End C100.
Print Assumptions C100_detect.
Print Assumptions C100_nan.
Print Assumptions C100_result.
Print Assumptions C100_chain.
Print Assumptions C100_nan_chain.

(** ** A concrete case: absolute values of what is positive, twice *)
Definition v_one := S754_finite false 4503599627370496 (-52).
Definition v_minus := S754_finite true 4503599627370496 (-52).
Definition v_two := S754_finite false 4503599627370496 (-51).
Definition not_negative (x : spec_float) : bool := SFleb (S754_zero false) x.
Definition v_mem : mem spec_float := mem_of [[v_one; v_minus; v_two; S754_nan]; [v_two; v_two; v_two; v_two]; [v_two; v_two; v_two; v_two]] [[]; []; [false; false; false; false]].
Definition twice (nd : spec_float) :=
  run (bind (unary_2d SFabs not_negative (fun _ _ => true) SkipNoData (mark_value nd 1) 0 1 2 (whole2 2 2))
    (fun _ => unary_2d SFabs (fun _ => true) (fun _ _ => true) (detect_value nd 1) (MarkByMask 2 true) 1 2 2 (whole2 2 2))) v_mem.

Example C100_case :
  mask_of (twice v_minus) 2 4 = [Some false; Some true; Some false; Some true] /\
  values_of (twice v_minus) 2 4 = [Some v_one; Some v_two; Some v_two; Some v_two] /\
  is_float (fprec Double) (femax Double) v_minus /\ is_nan v_minus = false /\
  (forall i, 0 <= i < 2 * 2 -> arg_exists SkipNoData 0 v_mem i /\ mval v_mem 1 i <> None /\ mval v_mem 2 i <> None /\ mmsk v_mem 2 i <> None) /\
  matches Double (S754_zero true) (S754_zero false) /\ ~ matches Double v_one v_two.
Proof.
  split; [vm_compute; reflexivity|]. split; [vm_compute; reflexivity|]. split; [reflexivity|]. split; [reflexivity|]. split; [|split].
  - intros i Hi. assert (C : i = 0 \/ i = 1 \/ i = 2 \/ i = 3) by lia.
    destruct C as [-> | [-> | [-> | ->]]]; repeat split; discriminate.
  - repeat split.
  - intros (_ & _ & A). destruct A as [_ A]. specialize (A eq_refl). vm_compute in A. discriminate.
Qed.

(** "What is marked as no-data is no-data for the next operation": not with NaN. *)
Theorem C100_nan_refuted :
  mask_of (twice S754_nan) 2 4 = [Some false; Some false; Some false; Some false] /\
  values_of (twice S754_nan) 2 4 = [Some v_one; Some S754_nan; Some v_two; Some S754_nan].
Proof. split; vm_compute; reflexivity. Qed.
Print Assumptions C100_nan_refuted.
