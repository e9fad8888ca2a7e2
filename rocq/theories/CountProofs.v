(** Lemmas about counting. *)
From Coq Require Import ZArith List Bool Lia.
From Verif Require Import LangModel LangProofs ConcModel ConcProofs IndexModel IndexSpec
  IndexProofs LoopModel LoopSpec LoopProofs PolicyModel LocalModel LocalSpec LocalProofs
  IntsModel ArithModel ArithSpec ArithProofs AccumModel AggModel AggSpec AggProofs AggProps
  AccumProofs StatProofs CountModel CountSpec FrozenProofs.
Import ListNotations.
Open Scope Z_scope.

Lemma last_cons {X} (x d : X) l : last (x :: l) d = last l x.
Proof.
  revert x d. induction l as [|y l IH]; intros x d; [reflexivity|].
  change (last (x :: y :: l) d) with (last (y :: l) d). now rewrite !IH.
Qed.

Section Count.
Variables (wv : bool) (R : ity).
Variables (ip1 ip2 : inpol Z) (a : buf) (w : Z).
Variables (C : loc -> bool) (m : mem Z).

(** What the policies and the argument read can be read, and nobody writes it. *)
Definition pol_reads (ip : inpol Z) (i : Z) : Prop :=
  match ip with
  | DetectByMask b _ => C (LM b i) = true /\ mmsk m b i <> None
  | DetectByValue b _ => C (LV b i) = true /\ mval m b i <> None
  | _ => True
  end.
Definition elem_ok (i : Z) : Prop :=
  C (LV a i) = true /\ mval m a i <> None /\ pol_reads ip1 i /\ pol_reads ip2 i.

Notation valid := (valid_elements ip1 ip2 m).
Notation occ := (occurrences ip1 ip2 a w m).
Notation ND := (fun i => nd_at ip1 m i || nd_at ip2 m i).

Lemma does_is_no_data ip i : pol_reads ip i -> does C m (is_no_data ip i) [] (nd_at ip m i).
Proof.
  destruct ip as [| |b nd|b f]; cbn; auto.
  - intros [H1 H2]. split; auto. destruct (mmsk m b i) as [x|]; [|congruence]. exists x. auto.
  - intros [H1 H2]. split; auto. destruct (mval m b i) as [x|]; [|congruence]. exists x. auto.
Qed.
Lemma does_either i : elem_ok i -> does C m (either_no_data ip1 ip2 i) [] (ND i).
Proof.
  intros (_ & _ & H1 & H2). unfold either_no_data.
  eapply does_bind0; [apply does_is_no_data; auto|].
  destruct (nd_at ip1 m i); cbn [orb]; [cbn; auto|]. apply does_is_no_data; auto.
Qed.

Definition eqw (i : Z) : bool := match mval m a i with Some v => v =? w | None => false end.
Definition one (i : Z) : Z := if eqw i then 1 else 0.

Lemma valid_app_el l1 l2 : valid (l1 ++ l2) = valid l1 ++ valid l2.
Proof. apply filter_app. Qed.
Lemma valid_cons_el i l : valid (i :: l) = if ND i then valid l else i :: valid l.
Proof. unfold valid_elements. cbn [filter]. destruct (nd_at ip1 m i || nd_at ip2 m i); reflexivity. Qed.
Lemma occ_nil : occ [] = 0.
Proof. reflexivity. Qed.
Lemma occ_nd i l : ND i = true -> occ (i :: l) = occ l.
Proof. intros H. unfold occurrences. rewrite valid_cons_el, H. auto. Qed.
Lemma occ_val i l : ND i = false -> occ (i :: l) = one i + occ l.
Proof.
  intros H. unfold occurrences. rewrite valid_cons_el, H. cbn [filter]. unfold one.
  fold (eqw i). destruct (eqw i); cbn [length]; lia.
Qed.
Lemma occ_nonneg l : 0 <= occ l.
Proof. unfold occurrences. lia. Qed.
Lemma occ_app l1 l2 : occ (l1 ++ l2) = occ l1 + occ l2.
Proof. unfold occurrences. rewrite valid_app_el, filter_app, app_length. lia. Qed.
Lemma occ_none l : valid l = [] -> occ l = 0.
Proof. intros H. unfold occurrences. rewrite H. reflexivity. Qed.
Lemma one_bounds i : one i = 0 \/ one i = 1.
Proof. unfold one. destruct (eqw i); auto. Qed.

Lemma fits_conv R' z : fits_in R' (conv R' z).
Proof. apply conv_fits. Qed.

Lemma plus_into_zero r : fits_in R r -> plus_into wv R S32 r 0 = Some r.
Proof.
  intros F. rewrite (plus_into_fits wv R S32 r 0); auto using fits_0.
  - f_equal; lia. - rewrite Z.add_0_r; auto.
  - destruct (signed R) eqn:S; [left; reflexivity|right]. destruct R; cbn in *; try discriminate; unfold fits_in in F; cbn in F; lia.
Qed.

Lemma calc c b : b = 0 \/ b = 1 -> 0 <= c -> countable wv R (c + b) ->
  plus_into wv R S32 (conv R c) b = Some (conv R (c + b)).
Proof.
  intros [->| ->] Hc Hk.
  - rewrite plus_into_zero by apply fits_conv. now rewrite Z.add_0_r.
  - destruct Hk as [F|Hs].
    + assert (Fc : fits_in R c) by (unfold fits_in in *; pose proof (fits_0 R) as G; unfold fits_in in G; lia).
      rewrite !(conv_id R) by auto. apply plus_into_fits; auto using fits_1. right; lia.
    + rewrite plus_into_one by (auto using fits_conv). now rewrite conv_add_l.
Qed.

Lemma countable_le x y : 0 <= x <= y -> countable wv R y -> countable wv R x.
Proof.
  intros H [F|F]; [left|right; auto]. pose proof (fits_0 R) as G. unfold fits_in in *. lia.
Qed.

Section Block.
Variables (rb : buf) (k : Z).

Lemma does_init i : elem_ok i ->
  does C m (init_at a w rb k i) [WV rb k (one i)] (one i).
Proof.
  intros (H1 & H2 & _). unfold init_at. cbn. split; auto.
  unfold one, eqw. destruct (mval m a i) as [v|]; [|congruence]. exists v. split; auto.
  unfold count_init. exists []. destruct (v =? w); auto.
Qed.
Lemma does_calc c i : elem_ok i -> 0 <= c -> countable wv R (c + one i) ->
  does C m (calculate_at wv R a w rb k (conv R c) i) [WV rb k (conv R (c + one i))] (conv R (c + one i)).
Proof.
  intros (H1 & H2 & _) Hc Hk. unfold calculate_at.
  assert (Hb := one_bounds i). unfold one, eqw in *.
  cbn. split; auto. destruct (mval m a i) as [v|]; [|congruence]. exists v. split; auto.
  unfold count_calculate. rewrite calc by auto. cbn. exists []. auto.
Qed.

Definition vwrites (us : list Z) : list (wr Z) := map (WV rb k) us.

Lemma does_rest n : forall i c, (forall j, In j (zseq i n) -> elem_ok j) -> 0 <= c ->
  countable wv R (c + occ (zseq i n)) ->
  exists us, does C m (count_rest wv R ip1 ip2 a w rb k n i (conv R c)) (vwrites us)
               (conv R (c + occ (zseq i n))) /\
    last us (conv R c) = conv R (c + occ (zseq i n)).
Proof.
  induction n as [|n IH]; intros i c Hok Hc Hk.
  - exists []. cbn. rewrite Z.add_0_r. auto.
  - rewrite zseq_cons in *. cbn [count_rest].
    assert (Hi : elem_ok i) by auto with datatypes.
    assert (Hd := does_either i Hi). destruct (ND i) eqn:E.
    + rewrite occ_nd in * by auto. destruct (IH (i + 1) c) as (us & H1 & H2); auto with datatypes.
      exists us. split; auto. eapply does_bind0; [exact Hd|]. exact H1.
    + rewrite occ_val in * by auto. assert (Ho := one_bounds i). assert (Hn := occ_nonneg (zseq (i + 1) n)).
      destruct (IH (i + 1) (c + one i)) as (us & H1 & H2); auto with datatypes; [lia| |].
      { now rewrite <- Z.add_assoc. }
      rewrite <- Z.add_assoc in *.
      exists (conv R (c + one i) :: us). split.
      * eapply does_bind0; [exact Hd|]. cbn [vwrites map].
        change (WV rb k (conv R (c + one i)) :: map (WV rb k) us) with ([WV rb k (conv R (c + one i))] ++ vwrites us).
        eapply does_bind; [apply does_calc; auto|exact H1].
        eapply countable_le; [|exact Hk]. lia.
      * rewrite last_cons. exact H2.
Qed.

Lemma one_conv i : one i = conv R (one i).
Proof. symmetry. apply conv_id. destruct (one_bounds i) as [->| ->]; auto using fits_0, fits_1. Qed.

Lemma does_first n : forall i, (forall j, In j (zseq i n) -> elem_ok j) ->
  countable wv R (occ (zseq i n)) ->
  (valid (zseq i n) = [] -> does C m (count_first wv R ip1 ip2 a w rb k n i) [] false) /\
  (valid (zseq i n) <> [] ->
   exists u us, does C m (count_first wv R ip1 ip2 a w rb k n i) (vwrites (u :: us)) true /\
     last us u = conv R (occ (zseq i n))).
Proof.
  induction n as [|n IH]; intros i Hok Hk.
  - cbn. split; [auto|congruence].
  - rewrite zseq_cons in *. cbn [count_first].
    assert (Hi : elem_ok i) by auto with datatypes.
    assert (Hd := does_either i Hi). rewrite valid_cons_el. destruct (ND i) eqn:E.
    + rewrite occ_nd in * by auto. destruct (IH (i + 1)) as [H1 H2]; auto with datatypes. split.
      * intros Hv. eapply does_bind0; [exact Hd|]. cbn. auto.
      * intros Hv. destruct (H2 Hv) as (u & us & G1 & G2). exists u, us. split; auto.
        eapply does_bind0; [exact Hd|]. exact G1.
    + split; [discriminate|]. intros _. rewrite occ_val in * by auto.
      destruct (does_rest n (i + 1) (one i)) as (us & G1 & G2); auto with datatypes.
      { destruct (one_bounds i); lia. }
      rewrite <- one_conv in *. exists (one i), us. split; auto.
      eapply does_bind0; [exact Hd|]. cbn [vwrites map].
      change (WV rb k (one i) :: map (WV rb k) us) with ([WV rb k (one i)] ++ vwrites us).
      eapply does_bind; [apply does_init; auto|]. unfold seq.
      rewrite <- (app_nil_r (vwrites us)). eapply does_bind; [exact G1|]. cbn. auto.
Qed.

(** The writes of marking. *)
Definition mark_writes (op : outpol Z) : list (wr Z) :=
  match op with
  | DontMarkNoData => []
  | MarkByMask b nd => [WM b 0 nd]
  | MarkByValue b nd => [WV b 0 nd]
  end.
Lemma does_mark op : does C m (mark_as_no_data op 0) (mark_writes op) tt.
Proof. destruct op; cbn; auto; exists []; auto. Qed.

(** The writes of one block over the elements [l], of which [first] decide whether there is
    data. *)
Definition block_does (p : prog Z unit) (op : outpol Z) (first l : list Z) : Prop :=
  (valid first = [] -> does C m p (mark_writes op) tt) /\
  (valid first <> [] -> exists u us, does C m p (vwrites (u :: us)) tt /\ last us u = conv R (occ l)).

Lemma does_1d op r : (forall j, In j (indices r) -> elem_ok j) ->
  countable wv R (occ (indices r)) ->
  block_does (count_1d wv R ip1 ip2 a w rb k op r) op (indices r) (indices r).
Proof.
  intros Hok Hk. destruct (does_first (Z.to_nat (rend r - rbegin r)) (rbegin r) Hok Hk) as [H1 H2].
  split; intros Hv.
  - eapply does_bind0; [apply H1; auto|]. apply does_mark.
  - destruct (H2 Hv) as (u & us & G1 & G2). exists u, us. split; auto. unfold count_1d.
    rewrite <- (app_nil_r (vwrites (u :: us))). eapply does_bind; [exact G1|]. cbn. auto.
Qed.

Lemma does_0d op : elem_ok 0 ->
  block_does (count_0d ip1 ip2 a w rb k op) op [0] [0].
Proof.
  intros Hok. unfold block_does, count_0d. rewrite valid_cons_el.
  assert (Hd := does_either 0 Hok). destruct (ND 0) eqn:E; (split; [|congruence || discriminate || idtac]).
  - intros _. eapply does_bind0; [exact Hd|]. apply does_mark.
  - cbn. congruence.
  - discriminate.
  - intros _. exists (one 0), []. split.
    + eapply does_bind0; [exact Hd|]. unfold seq. change (vwrites [one 0]) with ([WV rb k (one 0)] ++ []).
      eapply does_bind; [apply does_init; auto|]. cbn; auto.
    + rewrite occ_val by auto. rewrite occ_nil, Z.add_0_r. apply one_conv.
Qed.

(** 2D *)
Lemma does_first_row n : forall j idx, (forall i, In i (zseq idx n) -> elem_ok i) ->
  (valid (zseq idx n) = [] /\
   does C m (count_2d_first_row ip1 ip2 a w rb k n j idx) [] None) \/
  exists q, (q < n)%nat /\ valid (zseq idx n) <> [] /\
    (forall l, occ (zseq idx n ++ l) =
       one (idx + Z.of_nat q) + occ (zseq (idx + Z.of_nat q + 1) (n - q - 1) ++ l)) /\
    does C m (count_2d_first_row ip1 ip2 a w rb k n j idx)
      [WV rb k (one (idx + Z.of_nat q))] (Some (j + Z.of_nat q, one (idx + Z.of_nat q))).
Proof.
  induction n as [|n IH]; intros j idx Hok; [left; cbn; auto|].
  rewrite zseq_cons in *. cbn [count_2d_first_row].
  assert (Hi : elem_ok idx) by auto with datatypes.
  assert (Hd := does_either idx Hi). rewrite valid_cons_el. destruct (ND idx) eqn:E.
  - destruct (IH (j + 1) (idx + 1)) as [[H1 H2]|(q & Hq & H1 & H2 & H3)]; auto with datatypes.
    + left. split; auto. eapply does_bind0; [exact Hd|]. exact H2.
    + right. exists (S q). split; [lia|]. split; auto. split.
      * intros l. cbn [app]. rewrite occ_nd by auto. rewrite H2.
        replace (idx + Z.of_nat (S q)) with (idx + 1 + Z.of_nat q) by lia. reflexivity.
      * replace (idx + Z.of_nat (S q)) with (idx + 1 + Z.of_nat q) by lia.
        replace (j + Z.of_nat (S q)) with (j + 1 + Z.of_nat q) by lia.
        eapply does_bind0; [exact Hd|]. exact H3.
  - right. exists O. rewrite !Z.add_0_r. split; [lia|]. split; [discriminate|]. split.
    + intros l. cbn [app]. rewrite occ_val by auto. replace (S n - 0 - 1)%nat with n by lia. auto.
    + eapply does_bind0; [exact Hd|].
      change [WV rb k (one idx)] with ([WV rb k (one idx)] ++ []).
      eapply does_bind; [apply does_init; auto|]. cbn; auto.
Qed.

(** Once [j] has reached the end of the row, nothing is found any more. *)
Lemma does_first_stuck nc e2 n : forall i,
  does C m (count_2d_first ip1 ip2 a w rb k nc e2 n i e2) [] None.
Proof.
  induction n as [|n IH]; intros i; [cbn; auto|]. cbn [count_2d_first].
  rewrite Z.sub_diag. cbn [Z.to_nat count_2d_first_row bind]. rewrite Z.max_id. apply IH.
Qed.

Lemma does_2d_rest nc b2 e2 n : forall i j c,
  (forall x, In x (zseq (i * nc + j) (Z.to_nat (e2 - j)) ++ rows_from nc b2 e2 (i + 1) n) -> elem_ok x) ->
  0 <= c ->
  let l := zseq (i * nc + j) (Z.to_nat (e2 - j)) ++ rows_from nc b2 e2 (i + 1) n in
  countable wv R (c + occ l) ->
  exists us, does C m (count_2d_rest wv R ip1 ip2 a w rb k nc b2 e2 (S n) i j (conv R c)) (vwrites us) tt /\
    last us (conv R c) = conv R (c + occ l).
Proof.
  induction n as [|n IH]; intros i j c Hok Hc l Hk.
  - unfold l in *. change (rows_from nc b2 e2 (i + 1) 0) with (@nil Z) in *. rewrite app_nil_r in *.
    destruct (does_rest (Z.to_nat (e2 - j)) (i * nc + j) c) as (us & H1 & H2); auto.
    exists us. split; auto. cbn [count_2d_rest]. rewrite <- (app_nil_r (vwrites us)).
    eapply does_bind; [exact H1|]. cbn; auto.
  - unfold l in *. clear l. rewrite occ_app in *. set (row1 := zseq (i * nc + j) (Z.to_nat (e2 - j))) in *.
    assert (N1 := occ_nonneg row1). assert (N2 := occ_nonneg (rows_from nc b2 e2 (i + 1) (S n))).
    destruct (does_rest (Z.to_nat (e2 - j)) (i * nc + j) c) as (us & H1 & H2); auto.
    { intros x Hx. apply Hok, in_or_app; left; exact Hx. }
    { eapply countable_le; [|exact Hk]. fold row1. lia. }
    fold row1 in H1, H2. rewrite rows_from_S in *. unfold row in *.
    destruct (IH (i + 1) b2 (c + occ row1)) as (us' & H3 & H4).
    { intros x Hx. apply Hok, in_or_app; right; exact Hx. } { lia. }
    { now rewrite <- Z.add_assoc. }
    exists (us ++ us'). split.
    + change (count_2d_rest wv R ip1 ip2 a w rb k nc b2 e2 (S (S n)) i j (conv R c)) with
        (bind (count_rest wv R ip1 ip2 a w rb k (Z.to_nat (e2 - j)) (i * nc + j) (conv R c)) (fun tmp' =>
           count_2d_rest wv R ip1 ip2 a w rb k nc b2 e2 (S n) (i + 1) b2 tmp')).
      unfold vwrites. rewrite map_app. eapply does_bind; [exact H1|]. exact H3.
    + rewrite Z.add_assoc, <- H4.
      clear -H2. rewrite <- H2. clear. generalize (conv R c). induction us as [|u us IH]; intros d; [reflexivity|].
      change ((u :: us) ++ us') with (u :: (us ++ us')). rewrite !last_cons. apply IH.
Qed.

Lemma does_2d op nc blk : rbegin (fst blk) < rend (fst blk) ->
  (forall j, In j (block_elements nc blk) -> elem_ok j) ->
  countable wv R (occ (block_elements nc blk)) ->
  block_does (count_2d wv R ip1 ip2 a w rb k op nc blk) op
    (row nc (rbegin (snd blk)) (rend (snd blk)) (rbegin (fst blk))) (block_elements nc blk).
Proof.
  intros Hne Hok Hk. rewrite block_elements_rows in *. unfold count_2d.
  set (b1 := rbegin (fst blk)) in *. set (e1 := rend (fst blk)) in *.
  set (b2 := rbegin (snd blk)) in *. set (e2 := rend (snd blk)) in *.
  destruct (Z.ltb_spec b1 e1) as [H1|H1]; [|lia]. cbn [andb].
  unfold row.
  destruct (Z.ltb_spec b2 e2) as [H2|H2]; cycle 1.
  { replace (Z.to_nat (e2 - b2)) with O by lia. split; [|intros Hv; exfalso; apply Hv; reflexivity].
    intros _. apply does_mark. }
  assert (En : Z.to_nat (e1 - b1) = S (Z.to_nat (e1 - b1) - 1)) by lia.
  rewrite En in *. set (n := (Z.to_nat (e1 - b1) - 1)%nat) in *.
  rewrite rows_from_S in *. unfold row in *. cbn [count_2d_first].
  destruct (does_first_row (Z.to_nat (e2 - b2)) b2 (b1 * nc + b2)) as [[G1 G2]|(q & Hq & G1 & G2 & G3)].
  { intros i Hi. apply Hok, in_or_app; auto. }
  - split; [|congruence]. intros _. eapply does_bind0.
    { eapply does_bind0; [exact G2|]. cbv beta iota. rewrite Z.max_r by lia. apply does_first_stuck. }
    apply does_mark.
  - split; [congruence|]. intros _.
    set (i0 := b1 * nc + b2 + Z.of_nat q) in *.
    assert (Er : zseq (i0 + 1) (Z.to_nat (e2 - b2) - q - 1) =
                 zseq (b1 * nc + (b2 + Z.of_nat q + 1)) (Z.to_nat (e2 - (b2 + Z.of_nat q + 1)))).
    { unfold i0. f_equal; lia. }
    rewrite G2, Er in *.
    destruct (does_2d_rest nc b2 e2 n b1 (b2 + Z.of_nat q + 1) (one i0)) as (us & H3 & H4).
    { intros x Hx. apply Hok. apply in_app_or in Hx. apply in_or_app. destruct Hx as [Hx|Hx]; auto.
      left. rewrite in_zseq in *. lia. }
    { destruct (one_bounds i0); lia. }
    { exact Hk. }
    rewrite <- one_conv in *. exists (one i0), us. split; auto.
    change (vwrites (one i0 :: us)) with ([WV rb k (one i0)] ++ vwrites us).
    eapply does_bind.
    { change [WV rb k (one i0)] with ([WV rb k (one i0)] ++ []). eapply does_bind; [exact G3|]. cbn. auto. }
    cbv beta iota. replace (Z.to_nat (e1 - b1)) with (S n) by (unfold n; lia). exact H3.
Qed.
End Block.
End Count.

(** Effects of the writes. *)
Lemma writes_vwrites rb k us : forall (m : mem Z) d, mval m rb k = Some d ->
  mval (writes (vwrites rb k us) m) rb k = Some (last us d) /\
  (forall b i, b <> rb \/ i <> k -> mval (writes (vwrites rb k us) m) b i = mval m b i) /\
  (forall b i, mmsk (writes (vwrites rb k us) m) b i = mmsk m b i).
Proof.
  induction us as [|u us IH]; intros m d Hd; [cbn; auto|].
  change (writes (vwrites rb k (u :: us)) m) with (writes (vwrites rb k us) (set_v m rb k u)).
  destruct (IH (set_v m rb k u) u) as (H1 & H2 & H3).
  { cbn. now rewrite same_refl. }
  rewrite last_cons. split; auto. split; [|auto].
  intros b i N. rewrite H2 by auto. cbn.
  destruct (same rb b k i) eqn:E; auto. apply same_spec in E as [<- <-]. destruct N; congruence.
Qed.

(** A block that writes element 0 of the result itself. *)
Definition reads_of (op : outpol Z) (rb : buf) (l : loc) : bool :=
  match l with
  | LV b _ => negb (Nat.eqb b rb)
  | LM b _ => match mask_buffer op with Some c => negb (Nat.eqb b c) | None => true end
  end.

Lemma pol_reads_of op rb (ip : inpol Z) (m : mem Z) i :
  policy_apart ip op rb -> readable ip m i -> pol_reads (reads_of op rb) m ip i.
Proof.
  destruct ip as [| |b nd|b f]; cbn; auto; intros H1 H2; split; auto.
  - destruct (mask_buffer op) as [c|]; auto. apply negb_true_iff, Nat.eqb_neq. congruence.
  - apply negb_true_iff, Nat.eqb_neq. auto.
Qed.

Lemma block_computes R ip1 ip2 a w op rb (m : mem Z) p first l :
  result_exists op rb m 0 -> marks_result op rb ->
  block_does R ip1 ip2 a w (reads_of op rb) m rb 0 p op first l ->
  computes p op rb 1
    (fun _ => match valid_elements ip1 ip2 m first with
              | [] => NoData
              | _ => Value (conv R (occurrences ip1 ip2 a w m l))
              end) m.
Proof.
  intros [Hres Hmk] Hm [H1 H2].
  assert (HC : reads_of op rb (LV rb 0) = false) by (cbn; now rewrite Nat.eqb_refl).
  assert (Hag : agree (reads_of op rb) m m) by (intros x _; apply same_at_refl).
  assert (Hz : zrange 0 1 = [0]) by reflexivity.
  destruct (mval m rb 0) as [d|] eqn:Ed; [|congruence].
  destruct (valid_elements ip1 ip2 m first) as [|v vs].
  - specialize (H1 eq_refl). exists (writes (mark_writes op) m). split.
    + eapply does_run; eauto. unfold mark_writes. destruct op as [|b nd|b nd]; repeat constructor; cbn in *; subst; try (now rewrite Nat.eqb_refl); try congruence; auto.
    + destruct op as [|b nd|b nd]; cbn [mark_writes writes fold_left apply] in *.
      * split; [|split; auto]. intros i Hi. split; [|intros ? [=]]. destruct (mval m rb i); reflexivity.
      * split.
        -- intros i Hi. assert (i = 0) by lia. subst i. split; cbn.
           ++ rewrite Ed. reflexivity.
           ++ intros c [= <-]. rewrite same_refl. destruct (mmsk m b 0); [reflexivity|congruence].
        -- split; auto. intros b' i' N. cbn. destruct (same b b' 0 i') eqn:E; auto.
           apply same_spec in E as [<- <-]. rewrite Hz in N. cbn in N. destruct N; [congruence|tauto].
      * cbn in Hm. subst b. split.
        -- intros i Hi. assert (i = 0) by lia. subst i. split; cbn; [|discriminate].
           rewrite same_refl, Ed. reflexivity.
        -- split; auto. intros b' i' N. cbn. destruct (same rb b' 0 i') eqn:E; auto.
           apply same_spec in E as [<- <-]. rewrite Hz in N. cbn in N. destruct N; [congruence|tauto].
  - destruct H2 as (u & us & G1 & G2); [discriminate|].
    exists (writes (vwrites rb 0 (u :: us)) m). split.
    + eapply does_run; eauto. apply Forall_forall. intros x Hx. apply in_map_iff in Hx as (y & <- & _).
      cbn. rewrite Nat.eqb_refl. split; auto. congruence.
    + destruct (writes_vwrites rb 0 (u :: us) m d Ed) as (W1 & W2 & W3). rewrite last_cons, G2 in W1. split.
      * intros i Hi. assert (i = 0) by lia. subst i. split.
        -- rewrite W1, Ed. reflexivity.
        -- intros c Hc. rewrite W3. cbn. destruct (mmsk m c 0); reflexivity.
      * split; auto. intros b' i' N. apply W2. rewrite Hz in N. cbn in N.
        destruct N as [N|N]; [auto|right]. intros ->. apply N; auto.
Qed.

(** ** Parallel *)

(** The writes of consecutive blocks, numbered from [k]: a block either writes its result, or
    marks. *)
Inductive block_writes (op : outpol Z) (pb : buf) : Z -> list (list (wr Z)) -> list (option Z) -> Prop :=
| bw_nil k : block_writes op pb k [] []
| bw_val k u us wss os : block_writes op pb (k + 1) wss os ->
    block_writes op pb k (vwrites pb k (u :: us) :: wss) (Some (last us u) :: os)
| bw_mark k wss os : block_writes op pb (k + 1) wss os ->
    block_writes op pb k (mark_writes op :: wss) (None :: os).

Definition none_in (os : list (option Z)) : bool :=
  existsb (fun o => match o with None => true | _ => false end) os.
Definition value_or_0 (o : option Z) : Z := match o with Some v => v | None => 0 end.

Lemma mark_other op (pb : buf) (m : mem Z) : (forall nd, op <> MarkByValue pb nd) ->
  forall i, mval (writes (mark_writes op) m) pb i = mval m pb i.
Proof.
  intros N i. destruct op as [|b nd|b nd]; cbn; auto.
  destruct (same b pb 0 i) eqn:E; auto. apply same_spec in E as [-> _]. destruct (N nd); auto.
Qed.

(** Two memories that are the same but for the values of [pb]. *)
Definition same_but (pb : buf) (m m' : mem Z) : Prop :=
  (forall b i, b <> pb -> mval m b i = mval m' b i) /\ (forall b i, mmsk m b i = mmsk m' b i).
Lemma same_but_refl pb m : same_but pb m m.
Proof. split; auto. Qed.
Lemma same_but_trans pb m1 m2 m3 : same_but pb m1 m2 -> same_but pb m2 m3 -> same_but pb m1 m3.
Proof.
  intros [A1 A2] [B1 B2]. split; intros.
  - rewrite A1 by auto. auto.
  - rewrite A2. auto.
Qed.
Lemma same_but_mark pb op m m' : same_but pb m m' ->
  same_but pb (writes (mark_writes op) m) (writes (mark_writes op) m').
Proof.
  intros [H1 H2]. destruct op as [|b nd|b nd]; cbn; [split; auto| |]; split; cbn; intros; auto.
  - destruct (same b b0 0 i); auto.
  - destruct (same b b0 0 i); auto.
Qed.
Lemma mark_twice pb op m :
  same_but pb (writes (mark_writes op) (writes (mark_writes op) m)) (writes (mark_writes op) m).
Proof.
  destruct op as [|b nd|b nd]; cbn; split; cbn; intros; auto; destruct (same b b0 0 i); auto.
Qed.

Lemma block_writes_effect op pb k wss os : block_writes op pb k wss os ->
  (forall nd, op <> MarkByValue pb nd) ->
  forall m, (forall j, k <= j < k + Z.of_nat (length os) -> mval m pb j = Some 0) ->
  let m' := writes (concat wss) m in
  (forall j o, nth_error os j = Some o -> mval m' pb (k + Z.of_nat j) = Some (value_or_0 o)) /\
  (forall i, i < k -> mval m' pb i = mval m pb i) /\
  same_but pb m' (if none_in os then writes (mark_writes op) m else m).
Proof.
  intros H N. induction H as [k|k u us wss os H IH|k wss os H IH]; intros m Hz.
  - cbn. split; [intros [|]; discriminate|]. split; [auto|apply same_but_refl].
  - cbn [concat length none_in existsb orb] in *. unfold writes in *. rewrite fold_left_app.
    fold (writes (vwrites pb k (u :: us)) m).
    assert (H0 : mval m pb k = Some 0) by (apply Hz; lia).
    destruct (writes_vwrites pb k (u :: us) m 0 H0) as (W1 & W2 & W3). rewrite last_cons in W1.
    set (mm := writes (vwrites pb k (u :: us)) m) in *.
    destruct (IH mm) as (G1 & G2 & G3).
    { intros j Hj. rewrite W2 by (right; lia). apply Hz. lia. }
    split; [|split].
    + intros [|j] o E; cbn in E.
      * inversion E; subst. rewrite Z.add_0_r, G2 by lia. exact W1.
      * replace (k + Z.of_nat (S j)) with (k + 1 + Z.of_nat j) by lia. auto.
    + intros i Hi. rewrite G2 by lia. apply W2. right; lia.
    + eapply same_but_trans; [exact G3|].
      assert (S1 : same_but pb mm m) by (split; intros; [apply W2; auto|apply W3]).
      fold (none_in os). destruct (none_in os); [apply same_but_mark|]; exact S1.
  - cbn [concat length none_in existsb orb] in *. unfold writes in *. rewrite fold_left_app.
    fold (writes (mark_writes op) m). set (mm := writes (mark_writes op) m) in *.
    assert (Wp : forall i, mval mm pb i = mval m pb i) by (apply mark_other; auto).
    destruct (IH mm) as (G1 & G2 & G3).
    { intros j Hj. rewrite Wp. apply Hz. lia. }
    split; [|split].
    + intros [|j] o E; cbn in E.
      * inversion E; subst. rewrite Z.add_0_r, G2, Wp by lia. apply Hz. lia.
      * replace (k + Z.of_nat (S j)) with (k + 1 + Z.of_nat j) by lia. auto.
    + intros i Hi. rewrite G2 by lia. apply Wp.
    + eapply same_but_trans; [exact G3|]. fold (none_in os).
      destruct (none_in os); [apply mark_twice|apply same_but_refl].
Qed.

(** Where the blocks write. *)
Lemma block_writes_where op pb k wss os : block_writes op pb k wss os ->
  forall i ws w, nth_error wss i = Some ws -> In w ws ->
  (exists o, nth_error os i = Some (Some o) /\ wloc w = LV pb (k + Z.of_nat i)) \/
  (nth_error os i = Some None /\ In w (mark_writes op)).
Proof.
  induction 1 as [k|k u us wss os H IH|k wss os H IH]; intros [|i] ws w E Hw; cbn in E; try discriminate.
  - inversion E; subst. left. apply (in_map_iff (WV pb k) (u :: us)) in Hw as (y & <- & _). rewrite Z.add_0_r. cbn [nth_error wloc]. eauto.
  - destruct (IH i ws w E Hw) as [(o & G1 & G2)|G]; [left|right; auto].
    exists o. split; auto. rewrite G2. f_equal. lia.
  - inversion E; subst. right. auto.
  - destruct (IH i ws w E Hw) as [(o & G1 & G2)|G]; [left|right; auto].
    exists o. split; auto. rewrite G2. f_equal. lia.
Qed.

Lemma mark_loc_unique op w w' : In w (mark_writes op) -> In w' (mark_writes op) -> wloc w = wloc w'.
Proof. destruct op; cbn; intros; intuition; subst; auto. Qed.

(** The sum of the results per block. *)
Section Sum.
Variables (wv : bool) (R : ity).
Let sacc := sum_checked wv R R discard_range_errors.

Lemma sum_blocks ks : forall c, 0 <= c -> Forall (fun k => 0 <= k) ks -> countable wv R (c + total ks) ->
  accumulates sacc (conv R c) (map (conv R) ks) (conv R (c + total ks)).
Proof.
  induction ks as [|k ks IH]; intros c Hc HF Hk.
  - cbn. rewrite Z.add_0_r. constructor.
  - inversion HF as [|? ? Hk0 HF']; subst. rewrite total_cons in *.
    assert (Ht : 0 <= total ks).
    { clear -HF'. induction HF' as [|x l H _ IH]; [cbn; lia|]. rewrite total_cons. lia. }
    cbn [map]. rewrite Z.add_assoc in *. econstructor; [|apply IH; auto; lia].
    cbn. unfold checked, discard_range_errors.
    assert (E : plus_into wv R R (conv R c) (conv R k) = Some (conv R (c + k))).
    { destruct Hk as [F|S].
      - pose proof (fits_0 R) as F0. unfold fits_in in F, F0.
        rewrite !(conv_id R) by (unfold fits_in; lia).
        apply plus_into_fits; auto; unfold fits_in; lia.
      - rewrite plus_into_safe; [|destruct S; [left|right]; auto|apply conv_fits|apply conv_fits].
        now rewrite conv_add_l, conv_add_r. }
    rewrite E. reflexivity.
Qed.
End Sum.

Section Par.
Variables (wv : bool) (R : ity) (ip1 ip2 : inpol Z) (a : buf) (w : Z).
Variables (op : outpol Z) (rb pb : buf) (m : mem Z).
Hypothesis Hres : result_exists op rb m 0.
Hypothesis Hmark : marks_result op rb.
Hypothesis Hpb : pb <> rb.
Hypothesis Hmb : mask_buffer op <> Some pb.

Definition reads_par (l : loc) : bool :=
  reads_of op rb l && match l with LV b _ => negb (Nat.eqb b pb) | _ => true end.

Notation valid := (valid_elements ip1 ip2 m).
Notation occ := (occurrences ip1 ip2 a w m).

(** First elements and all elements of a block. *)
Definition contribution (fl : list Z * list Z) : option Z :=
  match valid (fst fl) with [] => None | _ => Some (occ (snd fl)) end.

Lemma number_nth {X} (l : list X) : forall k i,
  nth_error (number k l) i = option_map (fun x => (k + Z.of_nat i, x)) (nth_error l i).
Proof using.
  clear Hpb. induction l as [|x l IH]; intros k [|i]; cbn [number nth_error option_map]; auto.
  - rewrite Z.add_0_r. auto.
  - rewrite IH. destruct (nth_error l i); cbn; auto. do 2 f_equal. lia.
Qed.
Lemma number_length {X} (l : list X) : forall k, length (number k l) = length l.
Proof using. induction l as [|x l IH]; intros k; cbn; auto. Qed.

Lemma blocks_write : forall (fls : list (list Z * list Z)) ps k,
  length ps = length fls ->
  (forall i p fl, nth_error ps i = Some p -> nth_error fls i = Some fl ->
     block_does R ip1 ip2 a w reads_par m pb (k + Z.of_nat i) p op (fst fl) (snd fl)) ->
  exists wss, block_writes op pb k wss (map (fun fl => option_map (conv R) (contribution fl)) fls) /\
    Forall2 (fun p ws => does reads_par m p ws tt) ps wss.
Proof.
  induction fls as [|fl fls IH]; intros [|p ps] k Hl Hb; try discriminate.
  - exists []. split; constructor.
  - destruct (IH ps (k + 1)) as (wss & H1 & H2); [cbn in Hl; lia| |].
    { intros i q fl' E1 E2. replace (k + 1 + Z.of_nat i) with (k + Z.of_nat (S i)) by lia.
      apply (Hb (S i)); auto. }
    specialize (Hb O p fl eq_refl eq_refl). rewrite Z.add_0_r in Hb. destruct Hb as [B1 B2].
    cbn [map]. unfold contribution at 1. destruct (valid (fst fl)) as [|v vs].
    + exists (mark_writes op :: wss). split; constructor; auto.
    + destruct B2 as (u & us & G1 & G2); [discriminate|].
      exists (vwrites pb k (u :: us) :: wss). split; [|constructor; auto].
      cbn [option_map]. rewrite <- G2. constructor. auto.
Qed.

Definition zero_or (o : option Z) : Z := match o with Some v => v | None => 0 end.

Lemma par_count masking ps (fls : list (list Z * list Z)) :
  fls <> [] -> length ps = length fls ->
  (forall i p fl, nth_error ps i = Some p -> nth_error fls i = Some fl ->
     block_does R ip1 ip2 a w reads_par m pb (Z.of_nat i) p op (fst fl) (snd fl)) ->
  op = DontMarkNoData \/ at_most_one (fun fl => valid (fst fl) = []) fls ->
  fresh_results pb (Z.of_nat (length fls)) m ->
  let n := total (map (fun fl => zero_or (contribution fl)) fls) in
  countable wv R n ->
  tasks_then ps (count_join wv R masking op pb rb (Z.of_nat (length fls))) op rb pb
    (if existsb (fun fl => match valid (fst fl) with [] => true | _ => false end) fls
     then marked_anyway op (conv R n) else Value (conv R n)) m.
Proof.
  intros Hne Hlen Hb Hone Hfresh n Hk.
  destruct (blocks_write fls ps 0 Hlen) as (wss & HW & HD).
  { intros i p fl E1 E2. rewrite Z.add_0_l. auto. }
  set (os := map (fun fl => option_map (conv R) (contribution fl)) fls) in *.
  assert (Hos : length os = length fls) by apply map_length.
  destruct Hres as [Hr0 Hrm].
  assert (Npb : forall nd, op <> MarkByValue pb nd).
  { intros nd ->. cbn in Hmark. congruence. }
  assert (Hmw : forall x, In x (mark_writes op) -> reads_par (wloc x) = false /\ present m (wloc x)).
  { intros x Hx. unfold reads_par, reads_of. destruct op as [|b nd|b nd]; cbn in Hx; [tauto| |]; destruct Hx as [<-|[]]; cbn in *.
    - rewrite Nat.eqb_refl. auto.
    - subst b. rewrite Nat.eqb_refl. auto. }
  assert (HY : always_yields ps m (writes (concat wss) m)).
  { apply (disjoint_tasks reads_par); auto.
    - intros k ws x E Hx. destruct (block_writes_where op pb 0 wss os HW k ws x E Hx) as [(o & G1 & G2)|[G1 G2]]; auto.
      rewrite G2. assert (Lk : (k < length os)%nat) by (apply nth_error_Some; congruence).
      unfold reads_par, reads_of. cbn. rewrite Nat.eqb_refl, andb_false_r. split; auto.
      destruct (Hfresh (Z.of_nat k)) as [-> _]; [lia|discriminate].
    - intros i j ws ws' x x' Hij E1 E2 Hx Hx'.
      destruct (block_writes_where op pb 0 wss os HW i ws x E1 Hx) as [(o & G1 & G2)|[G1 G2]];
      destruct (block_writes_where op pb 0 wss os HW j ws' x' E2 Hx') as [(o' & G3 & G4)|[G3 G4]].
      + rewrite G2, G4. intros [= E]. lia.
      + destruct (Hmw x' G4) as [C1 _]. rewrite G2. intros E.
        clear -G4 E Npb. destruct op as [|b nd|b nd]; cbn in G4; [tauto| |]; destruct G4 as [<-|[]]; cbn in E; [discriminate|].
        inversion E; subst. eapply Npb; eauto.
      + destruct (Hmw x G2) as [C1 _]. rewrite G4. intros E.
        clear -G2 E Npb. destruct op as [|b nd|b nd]; cbn in G2; [tauto| |]; destruct G2 as [<-|[]]; cbn in E; [discriminate|].
        inversion E; subst. eapply Npb; eauto.
      + destruct Hone as [->|Hone]; [destruct G2|].
        exfalso. apply Hij.
        assert (HG : forall q, nth_error os q = Some None ->
                   exists fl, nth_error fls q = Some fl /\ valid (fst fl) = []).
        { clear. intros q. unfold os. rewrite nth_error_map. destruct (nth_error fls q) as [fl|]; [|discriminate].
          cbn. intros [= E]. exists fl. split; auto. unfold contribution in E. destruct (valid (fst fl)); [auto|discriminate]. }
        destruct (HG i G1) as (f1 & F1 & F2). destruct (HG j G3) as (f2 & F3 & F4).
        eapply Hone; eauto. }
  destruct HY as [HR HS]. split; [exact HR|]. intros sched.
  destruct (HS sched) as (qs & m1 & E & Hdone & Hcont). exists qs, m1. split; [exact E|]. split; [|exact Hcont].
  intros Hd. specialize (Hdone Hd).
  destruct (block_writes_effect op pb 0 wss os HW Npb m) as (V1 & V2 & [V3 V4]).
  { intros j Hj. apply Hfresh. lia. }
  set (m1' := writes (concat wss) m) in *.
  set (mk := if none_in os then writes (mark_writes op) m else m) in *.
  assert (Vm : forall b i, mval m1 b i = mval m1' b i) by (intros b i; apply (Hdone (LV b i))).
  assert (Mm : forall b i, mmsk m1 b i = mmsk m1' b i) by (intros b i; apply (Hdone (LM b i))).
  (* what marking changes *)
  assert (K1 : forall b i, b <> rb \/ i <> 0 -> mval mk b i = mval m b i).
  { intros b i N. unfold mk. destruct (none_in os); auto. destruct op as [|c nd|c nd]; cbn in *; auto.
    subst c. destruct (same rb b 0 i) eqn:Es; auto. apply same_spec in Es as [<- <-]. destruct N; congruence. }
  assert (K2 : forall b i, mask_buffer op <> Some b \/ i <> 0 -> mmsk mk b i = mmsk m b i).
  { intros b i N. unfold mk. destruct (none_in os); auto. destruct op as [|c nd|c nd]; cbn in *; auto.
    destruct (same c b 0 i) eqn:Es; auto. apply same_spec in Es as [<- <-]. destruct N; congruence. }
  assert (Hres1 : result_exists op rb m1 0).
  { split.
    - rewrite Vm, V3 by auto. unfold mk. destruct (none_in os); auto.
      destruct op as [|c nd|c nd]; cbn; auto. destruct (same c rb 0 0); [discriminate|auto].
    - destruct op as [|c nd|c nd]; auto. rewrite Mm, V4. unfold mk.
      destruct (none_in os); auto. cbn. rewrite same_refl. discriminate. }
  set (ipj := if masking then DetectByMask pb true else @SkipNoData Z).
  set (len := Z.of_nat (length fls)) in *.
  assert (Hpv : forall j o, nth_error os j = Some o -> mval m1 pb (Z.of_nat j) = Some (value_or_0 o)).
  { intros j o Ej. rewrite Vm. apply (V1 j o Ej). }
  assert (Hpm : forall i, 0 <= i < len -> mmsk m1 pb i = Some false).
  { intros i Hi. rewrite Mm, V4, K2 by auto. apply Hfresh; auto. }
  assert (Hex : forall i, 0 <= i < len -> arg_exists ipj pb m1 i).
  { intros i Hi. split.
    - unfold ipj. destruct masking; cbn; auto. rewrite Hpm by auto. discriminate.
    - destruct (nth_error os (Z.to_nat i)) as [o|] eqn:Ej.
      + rewrite <- (Z2Nat.id i) by lia. rewrite (Hpv _ _ Ej). discriminate.
      + apply nth_error_None in Ej. unfold len in Hi. lia. }
  assert (Hvals : valid_values ipj pb m1 (zrange 0 len) = map value_or_0 os).
  { assert (HG : forall q k, (forall j o, nth_error q j = Some o -> mval m1 pb (k + Z.of_nat j) = Some (value_or_0 o)) ->
        (forall i, k <= i < k + Z.of_nat (length q) -> mmsk m1 pb i = Some false) ->
        valid_values ipj pb m1 (zseq k (length q)) = map value_or_0 q).
    { induction q as [|o q IHq]; intros k Hq Hqm; [reflexivity|].
      cbn [length map]. rewrite zseq_cons, valid_cons. unfold arg_at.
      assert (Hnd : nd_at ipj m1 k = false).
      { unfold ipj. destruct masking; cbn; auto. rewrite Hqm by (cbn [length]; lia). reflexivity. }
      rewrite Hnd. assert (Hk0 := Hq O o eq_refl). rewrite Z.add_0_r in Hk0. rewrite Hk0. cbn [app]. f_equal.
      apply IHq.
      - intros j o' Ej. replace (k + 1 + Z.of_nat j) with (k + Z.of_nat (S j)) by lia. auto.
      - intros i Hi. apply Hqm. cbn [length]. lia. }
    rewrite <- zseq_zrange. unfold len. replace (Z.to_nat (Z.of_nat (length fls) - 0)) with (length os) by lia.
    apply HG.
    - intros j o Ej. rewrite Z.add_0_l. auto.
    - intros i Hi. apply Hpm. unfold len. lia. }
  assert (Hmap : map value_or_0 os = map (conv R) (map (fun fl => zero_or (contribution fl)) fls)).
  { unfold os. rewrite !map_map. apply map_ext. intros fl. destruct (contribution fl); cbn; auto.
    now rewrite conv_0. }
  assert (Hnn : Forall (fun k => 0 <= k) (map (fun fl => zero_or (contribution fl)) fls)).
  { apply Forall_forall. intros x Hx. apply in_map_iff in Hx as (fl & <- & _). unfold contribution.
    destruct (valid (fst fl)); cbn; [lia|]. apply occ_nonneg. }
  destruct (C20_aggregate_1d (sum_checked wv R R discard_range_errors) ipj op pb rb m1 Hres1 Hmark len)
    as (_ & HJ & _); [unfold len; lia|exact Hex|].
  rewrite Hvals, Hmap in HJ.
  destruct (HJ (conv R n) (conv R n)) as (m2 & R1 & R2 & R3 & R4).
  { destruct fls; [congruence|]. discriminate. }
  { cbn [a_init sum_checked]. rewrite <- (conv_0 R). rewrite <- (Z.add_0_l n). apply sum_blocks; auto. lia. }
  { reflexivity. }
  exists m2. split; [exact R1|].
  assert (Hz : zrange 0 1 = [0]) by reflexivity. rewrite Hz in R3, R4.
  destruct (R2 0) as [S1 S2]; [lia|].
  split; [|split].
  - assert (En : none_in os = existsb (fun fl => match valid (fst fl) with [] => true | _ => false end) fls).
    { unfold os, none_in. clear. induction fls as [|fl fls IH]; cbn; auto. rewrite IH. f_equal.
      unfold contribution. destruct (valid (fst fl)); reflexivity. }
    rewrite <- En. split.
    + rewrite S1. destruct Hres1 as [G _]. destruct (mval m1 rb 0); [|congruence].
      destruct (mval m rb 0); [|congruence]. cbn.
      destruct (none_in os); [|reflexivity]. unfold marked_anyway. destruct op; reflexivity.
    + intros c Hc. rewrite (S2 c Hc). rewrite Mm, V4. unfold mk.
      destruct (none_in os).
      * destruct op as [|c' nd|c' nd]; try discriminate. cbn in Hc. inversion Hc; subst c'. cbn in *.
        rewrite same_refl. cbn. destruct (mmsk m c 0); [reflexivity|congruence].
      * cbn. destruct (mmsk m c 0); reflexivity.
  - intros b i Nb N. rewrite R3; [|destruct N; [auto|right; cbn; intuition]]. rewrite Vm, V3 by auto. auto.
  - intros b i N. rewrite R4; [|destruct N; [auto|right; cbn; intuition]]. rewrite Mm, V4. auto.
Qed.
End Par.
