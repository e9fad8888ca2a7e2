(** Lemmas about slope, laplacian and lax. *)
From Coq Require Import ZArith List Bool Lia.
From Verif Require Import LangModel LangProofs ConcModel IndexModel IndexSpec IndexProofs LoopModel LoopSpec
  LoopProofs PolicyModel LocalModel LocalSpec LocalProofs CoreSpec CopySpec ConvolveModel ConvolveSpec
  ConvolveProofs ConvolveProps VectorModel VectorSpec.
Import ListNotations.
Open Scope Z_scope.

(** ** Memories that are equal at every location *)
Section MemEq.
Context {V A : Type}.

Lemma step_mem_eq (p : prog V A) m n p' m' : mem_eq m n -> step p m = Some (p', m') ->
  exists n', step p n = Some (p', n') /\ mem_eq m' n'.
Proof.
  intros E H. destruct p as [a|b i k|b i v k|b i k|b i x k|]; cbn in *.
  - injection H as <- <-. eauto.
  - pose proof (E (LV b i)) as El; cbn in El. rewrite <- El. destruct (mval m b i); [|discriminate].
    injection H as <- <-. eauto.
  - pose proof (E (LV b i)) as El; cbn in El. rewrite <- El. destruct (mval m b i); [|discriminate].
    injection H as <- <-. eexists. split; [reflexivity|].
    intros [b' i'|b' i']; cbn; [destruct (same b b' i i'); auto; apply (E (LV b' i'))|apply (E (LM b' i'))].
  - pose proof (E (LM b i)) as El; cbn in El. rewrite <- El. destruct (mmsk m b i); [|discriminate].
    injection H as <- <-. eauto.
  - pose proof (E (LM b i)) as El; cbn in El. rewrite <- El. destruct (mmsk m b i); [|discriminate].
    injection H as <- <-. eexists. split; [reflexivity|].
    intros [b' i'|b' i']; cbn; [apply (E (LV b' i'))|destruct (same b b' i i'); auto; apply (E (LM b' i'))].
  - discriminate.
Qed.

Lemma exec_mem_eq sched : forall (ps : list (prog V A)) m n ps' m', mem_eq m n ->
  exec sched ps m = Some (ps', m') -> exists n', exec sched ps n = Some (ps', n') /\ mem_eq m' n'.
Proof.
  induction sched as [|k sched IH]; intros ps m n ps' m' E H; cbn in *.
  - injection H as <- <-. eauto.
  - unfold step_task in *. destruct (nth_error ps k) as [p|]; [|eauto].
    destruct (step p m) as [[p' m1]|] eqn:Es; [|discriminate].
    destruct (step_mem_eq p m n p' m1 E Es) as (n1 & -> & E1). eauto.
Qed.

Lemma no_race_mem_eq (ps : list (prog V A)) m n : mem_eq m n -> no_race ps m -> no_race ps n.
Proof.
  intros E H sched ps' n' Hx. destruct (exec_mem_eq sched ps n m ps' n') as (m' & Hx' & _); auto.
  { apply mem_eq_sym; auto. }
  exact (H sched ps' m' Hx').
Qed.
End MemEq.

Section InTurn.
Context {V : Type}.
Implicit Types m : mem V.

Lemma in_turn_mem_eq (l : list (list (prog V unit) * prog V unit)) : forall m n m1,
  mem_eq m n -> yields_in_turn l m m1 -> yields_in_turn l n m1.
Proof.
  induction l as [|[tasks join] l IH]; intros m n m1 E H; cbn [yields_in_turn] in *.
  - eapply mem_eq_trans; [apply mem_eq_sym; exact E|exact H].
  - destruct H as [H1 H2]. split; [eapply no_race_mem_eq; eauto|].
    intros sched. destruct (H2 sched) as (ps & m2 & Hx & Hd & (sched' & ps' & m3 & Hy & Hz)).
    destruct (exec_mem_eq sched tasks m n ps m2 E Hx) as (n2 & Hx' & E2).
    exists ps, n2. split; [exact Hx'|]. split.
    + intros Ha. destruct (Hd Ha) as (m' & R & Y).
      destruct (run_mem_eq join m2 n2 tt m' E2 R) as (n' & R' & E'). exists n'. split; eauto.
    + destruct (exec_mem_eq sched' ps m2 n2 ps' m3 E2 Hy) as (n3 & Hy' & _). eauto.
Qed.

Lemma leaves_nil m : leaves [] m m.
Proof. split; [reflexivity|]. intros n _. exists []. split; [reflexivity|]. cbn. apply mem_eq_refl. Qed.

Lemma leaves_cons (c : call V) calls m m1 m2 :
  run (sequentially c) m = Some (tt, m1) ->
  (forall n, 1 <= n -> exists tasks, in_parallel c n = Some tasks /\ always_yields tasks m m1) ->
  leaves calls m1 m2 -> leaves (c :: calls) m m2.
Proof.
  intros R P [R2 P2]. split.
  - cbn [in_order]. rewrite run_seq, R. exact R2.
  - intros n Hn. destruct (P n Hn) as (tasks & E & [Nr Y]). destruct (P2 n Hn) as (l & El & Yl).
    exists ((tasks, skip) :: l). cbn [submitted]. rewrite E, El. split; [reflexivity|].
    cbn [yields_in_turn]. split; [exact Nr|]. intros sched.
    destruct (Y sched) as (ps & m' & Hx & Hd & Hc). exists ps, m'. split; [exact Hx|]. split; [|exact Hc].
    intros Ha. exists m'. split; [reflexivity|]. eapply in_turn_mem_eq; [|exact Yl].
    apply mem_eq_sym; auto.
Qed.
End InTurn.

(** ** One call *)
Section Calls.
Context {V : Type}.
Implicit Types m : mem V.
Implicit Types op : outpol V.
Variables (rows cols : Z).
Let all := zrange 0 (rows * cols).

Definition call_computes (c : call V) op (rb : buf) (o : Z -> outcome V) m : Prop :=
  computes_on (sequentially c) (in_parallel c) op rb all o m.

Lemma leaves_computes c calls op rb o m (Q : mem V -> Prop) :
  call_computes c op rb o m ->
  (forall m1, (forall i, 0 <= i < rows * cols -> holds op rb m m1 i (o i)) ->
     changes_only op rb all m m1 -> dom_eq m m1 ->
     exists m2, leaves calls m1 m2 /\ Q m2) ->
  exists m2, leaves (c :: calls) m m2 /\ Q m2.
Proof.
  intros (m1 & R & H & C & P) K. destruct (K m1) as (m2 & L & Hq); auto.
  - intros i Hi. apply H, in_zrange. auto.
  - eapply run_dom; eauto.
  - exists m2. split; [|exact Hq]. eapply leaves_cons; eauto.
Qed.

Lemma local_computes op rb opf o m : 0 <= rows < 2 ^ 64 -> 0 <= cols ->
  local2 op rb rows cols opf o m -> call_computes (local_call rows cols opf) op rb o m.
Proof.
  intros Hr Hc L. destruct (local2_sequential op rb rows cols opf o m) as (m1 & R & H & C); auto; [lia|].
  exists m1. split; [exact R|]. split; [|split; [exact C|]].
  - intros i Hi. apply H. apply in_zrange in Hi. exact Hi.
  - intros n Hn. eapply local2_parallel; eauto.
Qed.

(** What the mark of a result with a mask shows. *)
Definition val (o : outcome V) : option V := match o with Value v => Some v | _ => None end.
Definition masked (b : buf) m i : bool := nd_at (DetectByMask b true) m i.

Lemma mark_step b m m1 i o : holds (MarkByMask b true) b m m1 i o ->
  mval m b i <> None -> mmsk m b i <> None ->
  seen b m1 i = (if masked b m i then None else val o) /\
  masked b m1 i = masked b m i || match o with Value _ => false | _ => true end.
Proof.
  intros [H1 H2] Hv Hm. specialize (H2 b eq_refl). unfold seen, arg_at, masked, nd_at.
  rewrite H1, H2. destruct (mval m b i) as [v|]; [|congruence].
  destruct (mmsk m b i) as [[|]|]; [| |congruence]; destruct o; cbn; auto.
Qed.

Lemma mark_step_in_place b m m1 i o : holds (MarkByMask b true) b m m1 i o ->
  mval m b i <> None -> mmsk m b i <> None ->
  (seen b m i = None -> val o = None) -> seen b m1 i = val o.
Proof.
  intros H Hv Hm Hn. destruct (mark_step b m m1 i o H Hv Hm) as [E _]. rewrite E.
  unfold masked. destruct (nd_at (DetectByMask b true) m i) eqn:En; auto.
  rewrite Hn; auto. unfold seen, arg_at. rewrite En. auto.
Qed.
End Calls.

Lemma seen_ext {V} b (m m1 : mem V) i : mval m1 b i = mval m b i -> mmsk m1 b i = mmsk m b i ->
  seen b m1 i = seen b m i.
Proof. intros H1 H2. unfold seen, arg_at, nd_at. rewrite H1, H2. auto. Qed.

Lemma changes_buffers_of {V} op rb l L (m m1 : mem V) : changes_only op rb l m m1 -> In rb L ->
  (forall c, mask_buffer op = Some c -> In c L) -> changes_buffers L m m1.
Proof.
  intros [A B] Hr Hc b i Hb. split.
  - apply A. left. intros ->. auto.
  - apply B. left. intros E. apply Hb, Hc. auto.
Qed.

Lemma changes_buffers_trans {V} L (m m1 m2 : mem V) : changes_buffers L m m1 -> changes_buffers L m1 m2 ->
  changes_buffers L m m2.
Proof.
  intros A B b i Hb. destruct (A b i Hb) as [A1 A2]. destruct (B b i Hb) as [B1 B2].
  split; congruence.
Qed.

Lemma changes_buffers_refl {V} L (m : mem V) : changes_buffers L m m.
Proof. intros b i _. auto. Qed.

(** ** What the results depend on *)
Section Ext.
Context {V W SV SW : Type}.
Variable ar : arith V W SV SW.
Variables (ip : inpol V) (src : buf) (rows cols : Z) (k : kernel W).
Variables (alt : alternative) (oi : out_of_image) (keep : bool).
Variables (m m1 : mem V).
Hypothesis Ha : forall i, arg_at ip src m1 i = arg_at ip src m i.
Hypothesis Hn : forall i, nd_at ip m1 i = nd_at ip m i.

Lemma value_at_ext c : value_at ip src cols m1 c = value_at ip src cols m c.
Proof. apply Ha. Qed.

Lemma focal_average_ext c : focal_average ar ip src rows cols m1 c = focal_average ar ip src rows cols m c.
Proof.
  unfold focal_average.
  rewrite (flat_map_ext _ (fun d => listed (value_at ip src cols m d))); auto.
  intros d. rewrite value_at_ext. auto.
Qed.

Lemma contributions_ext f : contributions ar ip src rows cols k alt oi m1 f =
  contributions ar ip src rows cols k alt oi m f.
Proof.
  unfold contributions. f_equal; apply flat_map_ext; intros q.
  - unfold contribution_outside. rewrite focal_average_ext. auto.
  - unfold contribution_inside. rewrite value_at_ext, focal_average_ext. auto.
Qed.

Lemma convolved_ext f : convolved ar ip src rows cols k alt oi keep m1 f =
  convolved ar ip src rows cols k alt oi keep m f.
Proof. unfold convolved. rewrite Hn, contributions_ext. auto. Qed.
End Ext.

(** ** The calls that slope, laplacian and lax consist of *)
Section Steps.
Context {V SV SW : Type}.
Variable fl : floats V.
Variables (rows cols : Z).
Hypothesis Hrows : 0 <= rows < 2 ^ 64.
Hypothesis Hcols : 0 <= cols.
Implicit Types m : mem V.
Implicit Types op : outpol V.
Implicit Types ip : inpol V.

Lemma convolution_computes (ar : arith V V SV SW) ip op src dst w alt oi m :
  large_enough rows cols (square fl w) oi -> stored_apart ip src rows cols m op dst ->
  call_computes rows cols (convolution_call rows cols ar ip op src dst (square fl w) alt oi) op dst
    (fun i => value_or_no_data
       (convolved ar ip src rows cols (square fl w) alt oi true m (i / cols, i mod cols))) m.
Proof.
  intros L S. apply (computed ar ip op src dst rows cols (square fl w) alt oi true m L S).
  apply C43_replaceable; auto; [|cbn; lia]. intros i Hi. apply S. auto.
Qed.

Definition binary_value (o : option V) : outcome V :=
  match o with Some r => if finite fl r then Value r else OutOfRange r | None => NoData end.

Lemma divide_computes ip op a c rb m y : marks_result op rb -> c <> rb -> mval m c 0 = Some y ->
  (forall i, 0 <= i < rows * cols -> arg_exists ip a m i /\ result_exists op rb m i) ->
  call_computes rows cols (divide_by fl rows cols ip op a c rb) op rb
    (fun i => binary_outcome (fdiv fl) (fun _ y => negb (is_zero fl y)) (fun _ _ r => finite fl r)
       (arg_at ip a m i) (Some y)) m.
Proof.
  intros Hmr Hne Hy Hex. apply local_computes; auto.
  pose proof (local_binary_2d_0d (fdiv fl) (fun _ y => negb (is_zero fl y)) (fun _ _ r => finite fl r)
    ip SkipNoData op a c rb rows cols m Hcols Hmr Hne I) as L.
  unfold arg_at at 2 in L. cbn [nd_at] in L. rewrite Hy in L. apply L; auto.
  split; [exact I|congruence].
Qed.

Lemma power_computes ip op a c rb m y : marks_result op rb -> c <> rb -> mval m c 0 = Some y ->
  (forall i, 0 <= i < rows * cols -> arg_exists ip a m i /\ result_exists op rb m i) ->
  call_computes rows cols (power fl rows cols ip op a c rb) op rb
    (fun i => binary_outcome (fpow fl) (fun _ _ => true) (fun _ _ r => finite fl r)
       (arg_at ip a m i) (Some y)) m.
Proof.
  intros Hmr Hne Hy Hex. apply local_computes; auto.
  pose proof (local_binary_2d_0d (fpow fl) (fun _ _ => true) (fun _ _ r => finite fl r)
    ip SkipNoData op a c rb rows cols m Hcols Hmr Hne I) as L.
  unfold arg_at at 2 in L. cbn [nd_at] in L. rewrite Hy in L. apply L; auto.
  split; [exact I|congruence].
Qed.

Lemma scale_computes ip op c a rb m y : marks_result op rb -> c <> rb -> mval m c 0 = Some y ->
  (forall i, 0 <= i < rows * cols -> arg_exists ip a m i /\ result_exists op rb m i) ->
  call_computes rows cols (scale fl rows cols ip op c a rb) op rb
    (fun i => binary_outcome (fmul fl) (fun _ _ => true) (fun _ _ r => finite fl r)
       (Some y) (arg_at ip a m i)) m.
Proof.
  intros Hmr Hne Hy Hex. apply local_computes; auto.
  pose proof (local_binary_0d_2d (fmul fl) (fun _ _ => true) (fun _ _ r => finite fl r)
    SkipNoData ip op c a rb rows cols m Hcols Hmr Hne I) as L.
  unfold arg_at at 1 in L. cbn [nd_at] in L. rewrite Hy in L. apply L; auto.
  split; [exact I|congruence].
Qed.

Lemma binary_computes (f : V -> V -> V) ip1 ip2 op a1 a2 rb m : marks_result op rb ->
  (forall i, 0 <= i < rows * cols ->
     arg_exists ip1 a1 m i /\ arg_exists ip2 a2 m i /\ result_exists op rb m i) ->
  call_computes rows cols
    (local_call rows cols (binary_2d_2d f (fun _ _ => true) (fun _ _ r => finite fl r) ip1 ip2 op a1 a2 rb cols))
    op rb
    (fun i => binary_outcome f (fun _ _ => true) (fun _ _ r => finite fl r)
       (arg_at ip1 a1 m i) (arg_at ip2 a2 m i)) m.
Proof.
  intros Hmr Hex. apply local_computes; auto.
  exact (local_binary_2d_2d f (fun _ _ => true) (fun _ _ r => finite fl r)
    ip1 ip2 op a1 a2 rb rows cols m Hcols Hmr Hex).
Qed.

Lemma unary_computes (f : V -> V) ip op a rb m : marks_result op rb ->
  (forall i, 0 <= i < rows * cols -> arg_exists ip a m i /\ result_exists op rb m i) ->
  call_computes rows cols
    (local_call rows cols (unary_2d f (fun _ => true) (fun _ _ => true) ip op a rb cols)) op rb
    (fun i => match arg_at ip a m i with Some x => Value (f x) | None => NoData end) m.
Proof.
  intros Hmr Hex. apply local_computes; auto.
  exact (local_unary_2d f (fun _ => true) (fun _ _ => true) ip op a rb rows cols m Hcols Hmr Hex).
Qed.

Lemma val_binary f dom a b :
  val (binary_outcome f dom (fun _ _ r => finite fl r) a b) =
  match a, b with Some x, Some y => if dom x y then checked fl (f x y) else None | _, _ => None end.
Proof.
  destruct a as [x|], b as [y|]; cbn; auto. destruct (dom x y); auto.
  unfold checked. destruct (finite fl (f x y)); auto.
Qed.
End Steps.

(** ** Memory while the calls are executed *)
Section Track.
Context {V : Type}.
Implicit Types m : mem V.

Definition track (L : list buf) m mk : Prop := dom_eq m mk /\ changes_buffers L m mk.

Lemma track_refl L m : track L m m.
Proof. split; [apply dom_eq_refl|apply changes_buffers_refl]. Qed.

Lemma track_step L m mk mk1 op rb l : track L m mk -> changes_only op rb l mk mk1 -> dom_eq mk mk1 ->
  In rb L -> (forall c, mask_buffer op = Some c -> In c L) -> track L m mk1.
Proof.
  intros [D C] C1 D1 Hr Hc. split; [eapply dom_eq_trans; eauto|].
  eapply changes_buffers_trans; [exact C|]. eapply changes_buffers_of; eauto.
Qed.

Lemma track_val L m mk b i : track L m mk -> ~ In b L -> mval mk b i = mval m b i.
Proof. intros [_ C] H. apply C. auto. Qed.

Lemma track_exists L m mk b i : track L m mk -> mval m b i <> None -> mval mk b i <> None.
Proof. intros [[D _] _] H E. apply H, D. auto. Qed.

Lemma track_mask L m mk b i : track L m mk -> mmsk m b i <> None -> mmsk mk b i <> None.
Proof. intros [[_ D] _] H E. apply H, D. auto. Qed.

Lemma track_nd L m mk ip i : track L m mk -> (forall b, In b L -> looks_elsewhere ip b) ->
  nd_at ip mk i = nd_at ip m i /\ (readable ip m i -> readable ip mk i).
Proof.
  intros T H. destruct ip as [| |b nd|b g]; cbn; auto.
  - destruct T as [D C]. destruct (C b i) as [_ E]; [intros X; exact (H b X eq_refl)|]. rewrite E. auto.
  - destruct T as [D C]. destruct (C b i) as [E _]; [intros X; exact (H b X eq_refl)|]. rewrite E. auto.
Qed.

Lemma track_arg L m mk ip a i : track L m mk -> (forall b, In b L -> looks_elsewhere ip b) -> ~ In a L ->
  arg_at ip a mk i = arg_at ip a m i /\ (arg_exists ip a m i -> arg_exists ip a mk i).
Proof.
  intros T H Ha. destruct (track_nd L m mk ip i T H) as [E1 E2].
  unfold arg_at, arg_exists. rewrite E1, (track_val L m mk a i T Ha). tauto.
Qed.

Lemma step_other op rb l (b : buf) m m1 i : changes_only op rb l m m1 -> b <> rb -> mask_buffer op <> Some b ->
  mval m1 b i = mval m b i /\ mmsk m1 b i = mmsk m b i.
Proof. intros [A B] H1 H2. split; [apply A|apply B]; auto. Qed.

Lemma apart_elsewhere (ip : inpol V) (op : outpol V) rb : looks_elsewhere ip rb -> (forall c, mask_buffer op = Some c -> c = rb) ->
  policy_apart ip op rb.
Proof.
  intros H M. destruct ip as [| |b nd|b g]; cbn [policy_apart looks_elsewhere] in *; auto.
Qed.
End Track.

Section Slope.
Context {V SV SW : Type}.
Variable fl : floats V.
Variables (rows cols : Z).
Hypothesis Hrows : 3 <= rows < 2 ^ 64.
Hypothesis Hcols : 3 <= cols < 2 ^ 64.
Variable ar : arith V V SV SW.
Variables (ip : inpol V).
Variables (value result dz_dx dz_dy : buf).
Variables (eight_x eight_y two : buf).
Variable cell_size : Z -> V.
Variable m : mem V.
Hypothesis Hdist : NoDup [value; result; dz_dx; dz_dy; eight_x; eight_y; two].
Hypothesis Hip : forall b, In b [result; dz_dx; dz_dy] -> looks_elsewhere ip b.
Hypothesis Hscal : slope_scalars fl eight_x eight_y two cell_size m.
Hypothesis Harg : forall i, 0 <= i < rows * cols -> arg_exists ip value m i.

Notation L := [result; dz_dx; dz_dy].

Ltac tracked T Ch D :=
  apply (track_step _ _ _ _ _ _ _ T Ch D); cbn; [auto|intros ? [= <-]; auto].
Ltac distinct := 
  repeat match goal with H : NoDup (_ :: _) |- _ => let H1 := fresh "Nd" in let H2 := fresh "Nd" in
    apply NoDup_cons_iff in H as [H1 H2]; cbn [In] in H1 end.

Lemma slope_large w : large_enough rows cols (square fl w) OutOfImageByFocalAverage.
Proof. unfold large_enough. cbn. lia. Qed.

Let sum_at w i := convolved ar ip value rows cols (square fl w) NoDataByFocalAverage OutOfImageByFocalAverage
  true m (i / cols, i mod cols).

Lemma slope_marking : stored (rows * cols) HasMask result m ->
  fresh (rows * cols) HasMask dz_dx m -> fresh (rows * cols) HasMask dz_dy m ->
  exists m1, leaves (slope_calls fl rows cols ar HasMask HasMask ip (MarkByMask result true)
      value result dz_dx dz_dy eight_x eight_y two) m m1 /\
    track L m m1 /\
    forall i, 0 <= i < rows * cols ->
      seen result m1 i = (if masked result m i then None
        else slope_at fl ar ip value rows cols m (cell_size 0) (cell_size 1) (i / cols, i mod cols)) /\
      (nd_at ip m i = true -> mval m1 result i = mval m result i).
Proof.
  intros Sr Fx Fy. pose proof Hdist as Hd. clear Hdist. distinct. destruct Hscal as (C1 & C2 & C3).
  assert (Nx : dz_dx <> dz_dy /\ dz_dx <> result /\ dz_dy <> result) by (repeat split; intros E; subst; tauto).
  assert (Nc : forall c, In c [eight_x; eight_y; two; value] -> ~ In c L).
  { cbn. intros c Hc Hc'. intuition (subst; tauto). }
  assert (Conv : forall w t mk (c : buf), track L m mk -> In c [dz_dx; dz_dy] ->
    (forall i, 0 <= i < rows * cols -> mval m c i <> None /\ mmsk m c i <> None) ->
    t = convolution_call rows cols ar ip (MarkByMask c true) value c (square fl w) NoDataByFocalAverage
      OutOfImageByFocalAverage ->
    call_computes rows cols t (MarkByMask c true) c (fun i => value_or_no_data (sum_at w i)) mk).
  { intros w t mk c T Hc Hx ->.
    destruct (convolution_computes fl rows cols ar ip (MarkByMask c true) value c w NoDataByFocalAverage
      OutOfImageByFocalAverage mk) as (m1 & R & H & Q).
    - apply slope_large.
    - split; [|split; [|split]].
      + intros i Hi. split; [apply (track_arg L m mk ip value i T Hip); cbn; intuition|].
        destruct (Hx i Hi) as [X1 X2]. split; [eapply track_exists; eauto|eapply track_mask; eauto].
      + cbn in Hc. intros E. subst. intuition.
      + apply apart_elsewhere; [apply Hip; cbn in *; tauto|]. cbn. congruence.
      + exact I.
    - exists m1. split; [exact R|]. split; [|exact Q]. intros i Hi. specialize (H i Hi). cbn beta in H.
      rewrite (convolved_ext ar ip value rows cols _ _ _ true m mk) in H; [exact H| |].
      + intros j. apply (track_arg L m mk ip value j T Hip). cbn. intuition.
      + intros j. apply (track_nd L m mk ip j T Hip). }
  assert (InPlace : forall mk (c : buf), track L m mk -> In c L ->
     (forall i, 0 <= i < rows * cols -> mval m c i <> None /\ mmsk m c i <> None) ->
     forall i, 0 <= i < rows * cols ->
       arg_exists (DetectByMask c true) c mk i /\ result_exists (MarkByMask c true) c mk i).
  { intros mk c T Hc Hx i Hi. destruct (Hx i Hi) as [X1 X2].
    split; split; cbn; try (eapply track_exists; eauto); eapply track_mask; eauto. }
  assert (Fx' : forall i, 0 <= i < rows * cols -> mval m dz_dx i <> None /\ mmsk m dz_dx i <> None).
  { intros i Hi. destruct (Fx i Hi) as [A B]. rewrite (B eq_refl). split; [auto|congruence]. }
  assert (Fy' : forall i, 0 <= i < rows * cols -> mval m dz_dy i <> None /\ mmsk m dz_dy i <> None).
  { intros i Hi. destruct (Fy i Hi) as [A B]. rewrite (B eq_refl). split; [auto|congruence]. }
  assert (Sr' : forall i, 0 <= i < rows * cols -> mval m result i <> None /\ mmsk m result i <> None).
  { intros i Hi. destruct (Sr i Hi) as [A B]. auto. }
  assert (Rr : 0 <= rows < 2 ^ 64) by lia. assert (Rc : 0 <= cols) by lia.
  unfold slope_calls. cbn [temporary_out temporary_in].
  (* the convolution to dz_dx *)
  pose proof (track_refl L m) as T0.
  eapply leaves_computes; [apply (Conv horn_x _ m dz_dx T0); [cbn; auto|exact Fx'|reflexivity]|].
  intros m1 H1 Ch1 D1.
  assert (T1 : track L m m1) by (tracked T0 Ch1 D1).
  assert (X1 : forall i, 0 <= i < rows * cols -> seen dz_dx m1 i = sum_at horn_x i).
  { intros i Hi. destruct (Fx' i Hi) as [A B]. destruct (mark_step _ _ _ _ _ (H1 i Hi) A B) as [E _]. rewrite E.
    unfold masked, nd_at. destruct (Fx i Hi) as [_ Fm]. rewrite (Fm eq_refl). cbn [Bool.eqb].
    destruct (sum_at horn_x i); auto. }
  clear H1.
  (* dividing dz_dx *)
  eapply leaves_computes; [apply (divide_computes fl rows cols Rr Rc _ _ dz_dx eight_x dz_dx m1 (fmul fl (lit fl 8) (cell_size 0))); [exact I|intros E; subst; tauto| |apply InPlace; cbn; auto]|].
  { rewrite (track_val L m m1) by (auto; apply Nc; cbn; auto). exact C1. }
  intros m2 H2 Ch2 D2.
  assert (T2 : track L m m2) by (tracked T1 Ch2 D2).
  assert (X2 : forall i, 0 <= i < rows * cols -> seen dz_dx m2 i =
     also (sum_at horn_x i) (fun s => divided fl s (fmul fl (lit fl 8) (cell_size 0)))).
  { intros i Hi. destruct (InPlace m1 dz_dx T1 ltac:(cbn; auto) Fx' i Hi) as [[A B] _].
    rewrite (mark_step_in_place _ _ _ _ _ (H2 i Hi) B A).
    - rewrite val_binary. change (arg_at (DetectByMask dz_dx true) dz_dx m1 i) with (seen dz_dx m1 i).
      rewrite X1 by auto. destruct (sum_at horn_x i); cbn; auto. unfold divided. destruct (is_zero fl _); auto.
    - intros E. rewrite val_binary. change (arg_at (DetectByMask dz_dx true) dz_dx m1 i) with (seen dz_dx m1 i).
      rewrite E. auto. }
  clear H2.
  (* the convolution to dz_dy *)
  eapply leaves_computes; [apply (Conv horn_y _ m2 dz_dy T2); [cbn; auto|exact Fy'|reflexivity]|].
  intros m3 H3 Ch3 D3.
  assert (T3 : track L m m3) by (tracked T2 Ch3 D3).
  assert (U3 : forall i, mval m3 dz_dx i = mval m2 dz_dx i /\ mmsk m3 dz_dx i = mmsk m2 dz_dx i).
  { intros i. eapply step_other; [exact Ch3| |]; [tauto|]. cbn. intros [= E]. intuition. }
  assert (Y0 : forall i, mval m2 dz_dy i = mval m dz_dy i /\ mmsk m2 dz_dy i = mmsk m dz_dy i).
  { intros i. destruct (step_other _ _ _ dz_dy _ _ i Ch1) as [A B]; [intuition|cbn; intros [= E]; intuition|].
    destruct (step_other _ _ _ dz_dy _ _ i Ch2) as [A' B']; [intuition|cbn; intros [= E]; intuition|].
    split; congruence. }
  assert (Y3 : forall i, 0 <= i < rows * cols -> seen dz_dy m3 i = sum_at horn_y i).
  { intros i Hi. destruct (Fy' i Hi) as [A B]. destruct (Y0 i) as [E1 E2].
    destruct (mark_step _ _ _ _ _ (H3 i Hi)) as [E _]; try congruence. rewrite E.
    unfold masked, nd_at. destruct (Fy i Hi) as [_ Fm]. rewrite E2, (Fm eq_refl). cbn [Bool.eqb].
    destruct (sum_at horn_y i); auto. }
  assert (X3 : forall i, 0 <= i < rows * cols -> seen dz_dx m3 i =
     also (sum_at horn_x i) (fun s => divided fl s (fmul fl (lit fl 8) (cell_size 0)))).
  { intros i Hi. rewrite <- X2 by auto. apply seen_ext; apply U3. }
  clear H3 X1 X2 U3 Y0.
  (* dividing dz_dy *)
  eapply leaves_computes; [apply (divide_computes fl rows cols Rr Rc _ _ dz_dy eight_y dz_dy m3 (fmul fl (lit fl 8) (cell_size 1))); [exact I|intros E; subst; tauto| |apply InPlace; cbn; auto]|].
  { rewrite (track_val L m m3) by (auto; apply Nc; cbn; auto). exact C2. }
  intros m4 H4 Ch4 D4.
  assert (T4 : track L m m4) by (tracked T3 Ch4 D4).
  assert (Y4 : forall i, 0 <= i < rows * cols -> seen dz_dy m4 i =
     also (sum_at horn_y i) (fun s => divided fl s (fmul fl (lit fl 8) (cell_size 1)))).
  { intros i Hi. destruct (InPlace m3 dz_dy T3 ltac:(cbn; auto) Fy' i Hi) as [[A B] _].
    rewrite (mark_step_in_place _ _ _ _ _ (H4 i Hi) B A).
    - rewrite val_binary. change (arg_at (DetectByMask dz_dy true) dz_dy m3 i) with (seen dz_dy m3 i).
      rewrite Y3 by auto. destruct (sum_at horn_y i); cbn; auto. unfold divided. destruct (is_zero fl _); auto.
    - intros E. rewrite val_binary. change (arg_at (DetectByMask dz_dy true) dz_dy m3 i) with (seen dz_dy m3 i).
      rewrite E. auto. }
  assert (X4 : forall i, 0 <= i < rows * cols -> seen dz_dx m4 i =
     also (sum_at horn_x i) (fun s => divided fl s (fmul fl (lit fl 8) (cell_size 0)))).
  { intros i Hi. rewrite <- X3 by auto. apply seen_ext; eapply step_other; eauto; cbn; try intros [= E]; intuition. }
  clear H4 X3 Y3.
  (* squaring dz_dx *)
  eapply leaves_computes; [apply (power_computes fl rows cols Rr Rc _ _ dz_dx two dz_dx m4 (lit fl 2)); [exact I|intros E; subst; tauto| |apply InPlace; cbn; auto]|].
  { rewrite (track_val L m m4) by (auto; apply Nc; cbn; auto). exact C3. }
  intros m5 H5 Ch5 D5.
  assert (T5 : track L m m5) by (tracked T4 Ch5 D5).
  assert (X5 : forall i, 0 <= i < rows * cols -> seen dz_dx m5 i =
     squared_difference fl ar ip value rows cols m horn_x (cell_size 0) (i / cols, i mod cols)).
  { intros i Hi. destruct (InPlace m4 dz_dx T4 ltac:(cbn; auto) Fx' i Hi) as [[A B] _].
    rewrite (mark_step_in_place _ _ _ _ _ (H5 i Hi) B A).
    - rewrite val_binary. change (arg_at (DetectByMask dz_dx true) dz_dx m4 i) with (seen dz_dx m4 i).
      rewrite X4 by auto. unfold squared_difference, weighted_sum. fold (sum_at horn_x i).
      destruct (sum_at horn_x i); cbn; auto.
    - intros E. rewrite val_binary. change (arg_at (DetectByMask dz_dx true) dz_dx m4 i) with (seen dz_dx m4 i).
      rewrite E. auto. }
  assert (Y5 : forall i, 0 <= i < rows * cols -> seen dz_dy m5 i =
     also (sum_at horn_y i) (fun s => divided fl s (fmul fl (lit fl 8) (cell_size 1)))).
  { intros i Hi. rewrite <- Y4 by auto. apply seen_ext; eapply step_other; eauto; cbn; try intros [= E]; intuition. }
  clear H5 X4 Y4.
  (* squaring dz_dy *)
  eapply leaves_computes; [apply (power_computes fl rows cols Rr Rc _ _ dz_dy two dz_dy m5 (lit fl 2)); [exact I|intros E; subst; tauto| |apply InPlace; cbn; auto]|].
  { rewrite (track_val L m m5) by (auto; apply Nc; cbn; auto). exact C3. }
  intros m6 H6 Ch6 D6.
  assert (T6 : track L m m6) by (tracked T5 Ch6 D6).
  assert (Y6 : forall i, 0 <= i < rows * cols -> seen dz_dy m6 i =
     squared_difference fl ar ip value rows cols m horn_y (cell_size 1) (i / cols, i mod cols)).
  { intros i Hi. destruct (InPlace m5 dz_dy T5 ltac:(cbn; auto) Fy' i Hi) as [[A B] _].
    rewrite (mark_step_in_place _ _ _ _ _ (H6 i Hi) B A).
    - rewrite val_binary. change (arg_at (DetectByMask dz_dy true) dz_dy m5 i) with (seen dz_dy m5 i).
      rewrite Y5 by auto. unfold squared_difference, weighted_sum. fold (sum_at horn_y i).
      destruct (sum_at horn_y i); cbn; auto.
    - intros E. rewrite val_binary. change (arg_at (DetectByMask dz_dy true) dz_dy m5 i) with (seen dz_dy m5 i).
      rewrite E. auto. }
  assert (X6 : forall i, 0 <= i < rows * cols -> seen dz_dx m6 i =
     squared_difference fl ar ip value rows cols m horn_x (cell_size 0) (i / cols, i mod cols)).
  { intros i Hi. rewrite <- X5 by auto. apply seen_ext; eapply step_other; eauto; cbn; try intros [= E]; intuition. }
  clear H6 X5 Y5.
  assert (R6 : forall i, mval m6 result i = mval m result i /\ mmsk m6 result i = mmsk m result i).
  { intros i.
    assert (S : forall (op : outpol V) rb mk mk1, op = MarkByMask rb true -> In rb [dz_dx; dz_dy] ->
      changes_only op rb (zrange 0 (rows * cols)) mk mk1 ->
      mval mk1 result i = mval mk result i /\ mmsk mk1 result i = mmsk mk result i).
    { intros op rb mk mk1 -> Hrb C. apply (step_other _ _ _ result _ _ i C).
      - cbn in Hrb. intros E; subst; intuition.
      - cbn. intros [= E]. cbn in Hrb. subst; intuition. }
    destruct (S _ dz_dy _ _ eq_refl ltac:(cbn; auto) Ch6) as [A6 B6].
    destruct (S _ dz_dx _ _ eq_refl ltac:(cbn; auto) Ch5) as [A5 B5].
    destruct (S _ dz_dy _ _ eq_refl ltac:(cbn; auto) Ch4) as [A4 B4].
    destruct (S _ dz_dy _ _ eq_refl ltac:(cbn; auto) Ch3) as [A3 B3].
    destruct (S _ dz_dx _ _ eq_refl ltac:(cbn; auto) Ch2) as [A2 B2].
    destruct (S _ dz_dx _ _ eq_refl ltac:(cbn; auto) Ch1) as [A1 B1].
    split; congruence. }
  (* adding *)
  eapply leaves_computes; [apply (binary_computes fl rows cols Rr Rc (fadd fl) _ _ _ dz_dx dz_dy result m6); [exact I|]|].
  { intros i Hi. split; [apply InPlace; cbn; auto|]. split; [apply InPlace; cbn; auto|].
    apply InPlace; cbn; auto. }
  intros m7 H7 Ch7 D7.
  assert (T7 : track L m m7) by (tracked T6 Ch7 D7).
  set (sum i := also (squared_difference fl ar ip value rows cols m horn_x (cell_size 0) (i / cols, i mod cols))
    (fun x => also (squared_difference fl ar ip value rows cols m horn_y (cell_size 1) (i / cols, i mod cols))
    (fun y => checked fl (fadd fl x y)))).
  assert (Z7 : forall i, 0 <= i < rows * cols -> seen result m7 i = if masked result m i then None else sum i).
  { intros i Hi. destruct (R6 i) as [E1 E2]. destruct (Sr' i Hi) as [A B].
    destruct (mark_step _ _ _ _ _ (H7 i Hi)) as [E _]; try congruence. rewrite E.
    unfold masked, nd_at. rewrite E2. destruct (mmsk m result i) as [[|]|]; cbn [Bool.eqb]; auto;
    rewrite val_binary; change (arg_at (DetectByMask dz_dx true) dz_dx m6 i) with (seen dz_dx m6 i);
    change (arg_at (DetectByMask dz_dy true) dz_dy m6 i) with (seen dz_dy m6 i); rewrite X6, Y6 by auto;
    unfold sum, also; destruct (squared_difference fl ar ip value rows cols m horn_x _ _); auto. }
  (* the root *)
  eapply leaves_computes; [apply (unary_computes rows cols Rr Rc (fsqrt fl) _ _ result result m7); [exact I|]|].
  { apply InPlace; cbn; auto. }
  intros m8 H8 Ch8 D8.
  assert (T8 : track L m m8) by (tracked T7 Ch8 D8).
  exists m8. split; [apply leaves_nil|]. split; [exact T8|]. intros i Hi.
  destruct (InPlace m7 result T7 ltac:(cbn; auto) Sr' i Hi) as [[A B] _]. split.
  - rewrite (mark_step_in_place _ _ _ _ _ (H8 i Hi) B A);
      change (arg_at (DetectByMask result true) result m7 i) with (seen result m7 i).
    + rewrite Z7 by auto. destruct (masked result m i); auto. unfold sum, slope_at, also.
      destruct (squared_difference fl ar ip value rows cols m horn_x _ _); auto.
      destruct (squared_difference fl ar ip value rows cols m horn_y _ _); auto.
      destruct (checked fl _); auto.
    + intros ->. auto.
  - intros Nod.
    assert (Q : squared_difference fl ar ip value rows cols m horn_x (cell_size 0) (i / cols, i mod cols) = None).
    { unfold squared_difference, weighted_sum, convolved.
      replace (linear cols (i / cols, i mod cols)) with i.
      - rewrite Nod. auto.
      - unfold linear. cbn [fst snd]. rewrite (Z.mul_comm (i / cols)). apply Z.div_mod. clear - Hcols. lia. }
    destruct (H8 i Hi) as [E8 _]. change (arg_at (DetectByMask result true) result m7 i) with (seen result m7 i) in E8.
    rewrite Z7 in E8 by auto. destruct (H7 i Hi) as [E7 _]. destruct (R6 i) as [E6 _].
    change (arg_at (DetectByMask dz_dx true) dz_dx m6 i) with (seen dz_dx m6 i) in E7. rewrite X6, Q in E7 by auto.
    unfold sum in E8. rewrite Q in E8. cbn [also] in E8.
    replace (if masked result m i then None else None) with (@None V) in E8 by (destruct (masked result m i); auto).
    rewrite E8, E7, E6. destruct (mval m result i); auto.
Qed.

(** Without an output no-data policy *)
Lemma plain_step (op : outpol V) b mk mk1 i o v : op = DontMarkNoData -> holds op b mk mk1 i o ->
  mval mk b i = Some v ->
  mval mk1 b i = Some (match o with Value r | OutOfRange r => r | NoData => v end).
Proof. intros -> [H _] E. rewrite H, E. destruct o; auto. Qed.

Lemma slope_plain st_value st_result : stored (rows * cols) st_result result m ->
  fresh (rows * cols) st_value dz_dx m -> fresh (rows * cols) st_value dz_dy m ->
  zeros fl (rows * cols) dz_dx m -> zeros fl (rows * cols) dz_dy m ->
  exists m1, leaves (slope_calls fl rows cols ar st_value st_result ip DontMarkNoData
      value result dz_dx dz_dy eight_x eight_y two) m m1 /\
    track L m m1 /\ (forall b i, mmsk m1 b i = mmsk m b i) /\
    forall i, 0 <= i < rows * cols ->
      let s := unchecked_sum fl ar ip value rows cols m (cell_size 0) (cell_size 1) (i / cols, i mod cols) in
      mval m1 result i = Some (if nd_at (temporary_in st_result result) m i then s else fsqrt fl s).
Proof.
  intros Sr Fx Fy Zx Zy. pose proof Hdist as Hd. clear Hdist. distinct. destruct Hscal as (C1 & C2 & C3).
  assert (Nx : dz_dx <> dz_dy /\ dz_dx <> result /\ dz_dy <> result) by (repeat split; intros E; subst; tauto).
  assert (Nc : forall c, In c [eight_x; eight_y; two; value] -> ~ In c L).
  { cbn. intros c Hc Hc'. intuition (subst; tauto). }
  assert (Conv : forall w t mk (c : buf), track L m mk -> In c [dz_dx; dz_dy] ->
    (forall i, 0 <= i < rows * cols -> mval m c i <> None) ->
    t = convolution_call rows cols ar ip DontMarkNoData value c (square fl w) NoDataByFocalAverage
      OutOfImageByFocalAverage ->
    call_computes rows cols t DontMarkNoData c (fun i => value_or_no_data (sum_at w i)) mk).
  { intros w t mk c T Hc Hx ->.
    destruct (convolution_computes fl rows cols ar ip DontMarkNoData value c w NoDataByFocalAverage
      OutOfImageByFocalAverage mk) as (m1 & R & H & Q).
    - apply slope_large.
    - split; [|split; [|split]].
      + intros i Hi. split; [apply (track_arg L m mk ip value i T Hip); cbn; intuition|].
        split; [eapply track_exists; eauto|exact I].
      + cbn in Hc. intros E. subst. intuition.
      + apply apart_elsewhere; [apply Hip; cbn in *; tauto|]. cbn. congruence.
      + exact I.
    - exists m1. split; [exact R|]. split; [|exact Q]. intros i Hi. specialize (H i Hi). cbn beta in H.
      rewrite (convolved_ext ar ip value rows cols _ _ _ true m mk) in H; [exact H| |].
      + intros j. apply (track_arg L m mk ip value j T Hip). cbn. intuition.
      + intros j. apply (track_nd L m mk ip j T Hip). }
  assert (Rr : 0 <= rows < 2 ^ 64) by lia. assert (Rc : 0 <= cols) by lia.
  set (ok mk := track L m mk /\ forall b i, mmsk mk b i = mmsk m b i).
  assert (Next : forall mk mk1 rb l, ok mk -> changes_only DontMarkNoData rb l mk mk1 -> dom_eq mk mk1 -> In rb L -> ok mk1).
  { intros mk mk1 rb l [T M] C D I0. split.
    - apply (track_step _ _ _ _ _ _ _ T C D); [auto|]. cbn. congruence.
    - intros b i. rewrite <- M. apply C. cbn. left. congruence. }
  assert (Valid : forall mk st b i, ok mk -> fresh (rows * cols) st b m -> 0 <= i < rows * cols ->
    nd_at (temporary_in st b) mk i = false).
  { intros mk st b i [T M] F Hi. destruct st; [reflexivity|]. cbn. rewrite M. destruct (F i Hi) as [_ F2].
    rewrite (F2 eq_refl). auto. }
  assert (Ex : forall mk st b, ok mk -> stored (rows * cols) st b m -> forall i, 0 <= i < rows * cols ->
    arg_exists (temporary_in st b) b mk i /\ result_exists DontMarkNoData b mk i).
  { intros mk st b [T M] S i Hi. destruct (S i Hi) as [S1 S2].
    pose proof (track_exists L m mk b i T S1) as E. split; [|split; [exact E|exact I]].
    split; [|exact E]. destruct st; [exact I|]. cbn. rewrite M. auto. }
  assert (Sx : stored (rows * cols) st_value dz_dx m).
  { intros i Hi. destruct (Fx i Hi) as [A B]. split; auto. intros E. rewrite (B E). congruence. }
  assert (Sy : stored (rows * cols) st_value dz_dy m).
  { intros i Hi. destruct (Fy i Hi) as [A B]. split; auto. intros E. rewrite (B E). congruence. }
  assert (Oth : forall (b rb : buf) (mk mk1 : mem V) l i, changes_only DontMarkNoData rb l mk mk1 -> b <> rb ->
    mval mk1 b i = mval mk b i).
  { intros b rb mk mk1 l i [A _] N. apply A. auto. }
  unfold slope_calls. cbn [temporary_out].
  assert (O0 : ok m) by (split; [apply track_refl|auto]).
  set (sum_or_zero w i := match sum_at w i with Some s => s | None => lit fl 0 end).
  set (quotient w c i := let s := sum_or_zero w i in if is_zero fl c then s else fdiv fl s c).
  set (cx := fmul fl (lit fl 8) (cell_size 0)) in *. set (cy := fmul fl (lit fl 8) (cell_size 1)) in *.
  assert (Const : forall mk c v, ok mk -> In c [eight_x; eight_y; two; value] -> mval m c 0 = Some v -> mval mk c 0 = Some v).
  { intros mk c v [T _] Hc E. rewrite (track_val L m mk) by auto. exact E. }
  (* the convolution to dz_dx *)
  eapply leaves_computes; [apply (Conv horn_x _ m dz_dx (proj1 O0)); [cbn; auto|intros i Hi; apply Sx; auto|reflexivity]|].
  intros m1 H1 Ch1 D1.
  assert (O1 : ok m1) by (apply (Next _ _ _ _ O0 Ch1 D1); cbn; auto).
  assert (X1 : forall i, 0 <= i < rows * cols -> mval m1 dz_dx i = Some (sum_or_zero horn_x i)).
  { intros i Hi. rewrite (plain_step _ _ _ _ _ _ _ eq_refl (H1 i Hi) (Zx i Hi)). unfold sum_or_zero.
    destruct (sum_at horn_x i); auto. }
  clear H1.
  (* dividing dz_dx *)
  eapply leaves_computes; [apply (divide_computes fl rows cols Rr Rc _ _ dz_dx eight_x dz_dx m1 cx); [exact I|intros E; subst; tauto|apply (Const m1 _ _ O1); cbn; auto|apply (Ex m1 _ _ O1 Sx)]|].
  intros m2 H2 Ch2 D2.
  assert (O2 : ok m2) by (apply (Next _ _ _ _ O1 Ch2 D2); cbn; auto).
  assert (X2 : forall i, 0 <= i < rows * cols -> mval m2 dz_dx i = Some (quotient horn_x cx i)).
  { intros i Hi. rewrite (plain_step _ _ _ _ _ _ _ eq_refl (H2 i Hi) (X1 i Hi)). unfold arg_at.
    rewrite (Valid m1 _ _ i O1 Fx Hi), X1 by auto. cbn. unfold quotient. destruct (is_zero fl cx); cbn; auto.
    destruct (finite fl _); auto. }
  clear H2.
  (* the convolution to dz_dy *)
  eapply leaves_computes; [apply (Conv horn_y _ m2 dz_dy (proj1 O2)); [cbn; auto|intros i Hi; apply Sy; auto|reflexivity]|].
  intros m3 H3 Ch3 D3.
  assert (O3 : ok m3) by (apply (Next _ _ _ _ O2 Ch3 D3); cbn; auto).
  assert (Y3 : forall i, 0 <= i < rows * cols -> mval m3 dz_dy i = Some (sum_or_zero horn_y i)).
  { intros i Hi. rewrite (plain_step _ _ _ _ _ _ (lit fl 0) eq_refl (H3 i Hi)).
    - unfold sum_or_zero. destruct (sum_at horn_y i); auto.
    - rewrite (Oth dz_dy _ _ _ _ i Ch2), (Oth dz_dy _ _ _ _ i Ch1) by intuition. auto. }
  assert (X3 : forall i, 0 <= i < rows * cols -> mval m3 dz_dx i = Some (quotient horn_x cx i)).
  { intros i Hi. rewrite (Oth dz_dx _ _ _ _ i Ch3) by intuition. auto. }
  clear H3 X1 X2.
  (* dividing dz_dy *)
  eapply leaves_computes; [apply (divide_computes fl rows cols Rr Rc _ _ dz_dy eight_y dz_dy m3 cy); [exact I|intros E; subst; tauto|apply (Const m3 _ _ O3); cbn; auto|apply (Ex m3 _ _ O3 Sy)]|].
  intros m4 H4 Ch4 D4.
  assert (O4 : ok m4) by (apply (Next _ _ _ _ O3 Ch4 D4); cbn; auto).
  assert (Y4 : forall i, 0 <= i < rows * cols -> mval m4 dz_dy i = Some (quotient horn_y cy i)).
  { intros i Hi. rewrite (plain_step _ _ _ _ _ _ _ eq_refl (H4 i Hi) (Y3 i Hi)). unfold arg_at.
    rewrite (Valid m3 _ _ i O3 Fy Hi), Y3 by auto. cbn. unfold quotient. destruct (is_zero fl cy); cbn; auto.
    destruct (finite fl _); auto. }
  assert (X4 : forall i, 0 <= i < rows * cols -> mval m4 dz_dx i = Some (quotient horn_x cx i)).
  { intros i Hi. rewrite (Oth dz_dx _ _ _ _ i Ch4) by intuition. auto. }
  clear H4 X3 Y3.
  (* squaring dz_dx *)
  eapply leaves_computes; [apply (power_computes fl rows cols Rr Rc _ _ dz_dx two dz_dx m4 (lit fl 2)); [exact I|intros E; subst; tauto|apply (Const m4 _ _ O4); cbn; auto|apply (Ex m4 _ _ O4 Sx)]|].
  intros m5 H5 Ch5 D5.
  assert (O5 : ok m5) by (apply (Next _ _ _ _ O4 Ch5 D5); cbn; auto).
  assert (X5 : forall i, 0 <= i < rows * cols -> mval m5 dz_dx i = Some (fpow fl (quotient horn_x cx i) (lit fl 2))).
  { intros i Hi. rewrite (plain_step _ _ _ _ _ _ _ eq_refl (H5 i Hi) (X4 i Hi)). unfold arg_at.
    rewrite (Valid m4 _ _ i O4 Fx Hi), X4 by auto. cbn. destruct (finite fl _); auto. }
  assert (Y5 : forall i, 0 <= i < rows * cols -> mval m5 dz_dy i = Some (quotient horn_y cy i)).
  { intros i Hi. rewrite (Oth dz_dy _ _ _ _ i Ch5) by intuition. auto. }
  clear H5 X4 Y4.
  (* squaring dz_dy *)
  eapply leaves_computes; [apply (power_computes fl rows cols Rr Rc _ _ dz_dy two dz_dy m5 (lit fl 2)); [exact I|intros E; subst; tauto|apply (Const m5 _ _ O5); cbn; auto|apply (Ex m5 _ _ O5 Sy)]|].
  intros m6 H6 Ch6 D6.
  assert (O6 : ok m6) by (apply (Next _ _ _ _ O5 Ch6 D6); cbn; auto).
  assert (Y6 : forall i, 0 <= i < rows * cols -> mval m6 dz_dy i = Some (fpow fl (quotient horn_y cy i) (lit fl 2))).
  { intros i Hi. rewrite (plain_step _ _ _ _ _ _ _ eq_refl (H6 i Hi) (Y5 i Hi)). unfold arg_at.
    rewrite (Valid m5 _ _ i O5 Fy Hi), Y5 by auto. cbn. destruct (finite fl _); auto. }
  assert (X6 : forall i, 0 <= i < rows * cols -> mval m6 dz_dx i = Some (fpow fl (quotient horn_x cx i) (lit fl 2))).
  { intros i Hi. rewrite (Oth dz_dx _ _ _ _ i Ch6) by intuition. auto. }
  clear H6 X5 Y5.
  (* adding *)
  eapply leaves_computes; [apply (binary_computes fl rows cols Rr Rc (fadd fl) _ _ _ dz_dx dz_dy result m6); [exact I|]|].
  { intros i Hi. split; [apply (Ex m6 _ _ O6 Sx); auto|]. split; [apply (Ex m6 _ _ O6 Sy); auto|apply (Ex m6 _ _ O6 Sr); auto]. }
  intros m7 H7 Ch7 D7.
  assert (O7 : ok m7) by (apply (Next _ _ _ _ O6 Ch7 D7); cbn; auto).
  assert (Z7 : forall i, 0 <= i < rows * cols -> mval m7 result i =
    Some (unchecked_sum fl ar ip value rows cols m (cell_size 0) (cell_size 1) (i / cols, i mod cols))).
  { intros i Hi. destruct (Ex m6 _ _ O6 Sr i Hi) as [[_ E] _].
    destruct (mval m6 result i) as [v|] eqn:Ev; [|congruence].
    rewrite (plain_step _ _ _ _ _ _ v eq_refl (H7 i Hi) Ev). unfold arg_at.
    rewrite (Valid m6 _ _ i O6 Fx Hi), (Valid m6 _ _ i O6 Fy Hi), X6, Y6 by auto. cbn.
    destruct (finite fl _); auto. }
  (* the root *)
  eapply leaves_computes; [apply (unary_computes rows cols Rr Rc (fsqrt fl) _ _ result result m7); [exact I|apply (Ex m7 _ _ O7 Sr)]|].
  intros m8 H8 Ch8 D8.
  assert (O8 : ok m8) by (apply (Next _ _ _ _ O7 Ch8 D8); cbn; auto).
  exists m8. split; [apply leaves_nil|]. split; [apply O8|]. split; [apply O8|]. intros i Hi. cbv zeta.
  rewrite (plain_step _ _ _ _ _ _ _ eq_refl (H8 i Hi) (Z7 i Hi)). unfold arg_at.
  replace (nd_at (temporary_in st_result result) m7 i) with (nd_at (temporary_in st_result result) m i).
  - rewrite Z7 by auto. destruct (nd_at (temporary_in st_result result) m i); auto.
  - destruct O7 as [_ M7]. destruct st_result; cbn; rewrite ?M7; auto.
Qed.
End Slope.

(** ** The values around a cell *)
Section Around.
Context {V SV SW : Type}.
Variable fl : floats V.
Variable ar : arith V V SV SW.
Variables (ip : inpol V) (src : buf) (rows cols : Z) (m : mem V).

(** The weights of the kernel are told apart from zero. *)
Hypothesis Hzero : nonzero ar (lit fl 0) = false.
Hypothesis Htwo : nonzero ar (lit fl 2) = true.
Hypothesis Hthree : nonzero ar (lit fl 3) = true.

Lemma contributions_around f :
  contributions ar ip src rows cols (vector_kernel fl) SkipNoDataCells SkipOutOfImage m f =
  around fl ip src rows cols m f.
Proof.
  unfold contributions.
  assert (E : flat_map (fun q => if in_image rows cols (below (vector_kernel fl) f q) then []
     else listed (contribution_outside ar ip src rows cols (vector_kernel fl) SkipOutOfImage m f q))
     (kernel_cells (vector_kernel fl)) = []).
  { induction (kernel_cells (vector_kernel fl)) as [|q l IH]; auto. cbn [flat_map]. rewrite IH.
    destruct (in_image rows cols _); auto. }
  rewrite E. cbn [app]. clear E.
  assert (E : forall q, listed (contribution_inside ar ip src rows cols (vector_kernel fl) SkipNoDataCells m f q) =
     match value_at ip src cols m (below (vector_kernel fl) f q) with
     | Some v => if nonzero ar (weight_at (vector_kernel fl) q) then [(v, weight_at (vector_kernel fl) q)] else []
     | None => [] end).
  { intros q. unfold contribution_inside. destruct (value_at ip src cols m (below (vector_kernel fl) f q)).
    - destruct (nonzero ar (weight_at (vector_kernel fl) q)); reflexivity.
    - destruct (ignored ar rows cols (vector_kernel fl) f q); reflexivity. }
  rewrite (flat_map_ext _ (fun q => if in_image rows cols (below (vector_kernel fl) f q) then
     match value_at ip src cols m (below (vector_kernel fl) f q) with
     | Some v => if nonzero ar (weight_at (vector_kernel fl) q) then [(v, weight_at (vector_kernel fl) q)] else []
     | None => [] end else [])) by (intros q; rewrite E; auto).
  unfold around.
  change (kernel_cells (vector_kernel fl)) with
    [(0, 0); (0, 1); (0, 2); (1, 0); (1, 1); (1, 2); (2, 0); (2, 1); (2, 2)].
  cbn [flat_map fst snd].
  unfold below. cbn [radius vector_kernel square fst snd].
  destruct f as [i j]. cbn [fst snd].
  assert (P : forall a, a + 0 - 1 = a + -1 /\ a + 1 - 1 = a + 0 /\ a + 2 - 1 = a + 1) by (intros; lia).
  destruct (P i) as (I1 & I2 & I3). destruct (P j) as (J1 & J2 & J3). rewrite I1, I2, I3, J1, J2, J3.
  unfold weight_at. cbn [width radius weights vector_kernel square linear fst snd].
  repeat match goal with |- context[nth ?n ?l 0] => let v := eval vm_compute in (nth n l 0) in
    change (nth n l 0) with v end.
  rewrite Hzero, Htwo, Hthree.
  assert (C : (if in_image rows cols (i + 0, j + 0) then
     match value_at ip src cols m (i + 0, j + 0) with Some _ => [] | None => [] end else []) = @nil (V * V)).
  { destruct (in_image rows cols (i + 0, j + 0)); auto. destruct (value_at ip src cols m (i + 0, j + 0)); auto. }
  rewrite C. reflexivity.
Qed.

Lemma combined_convolved f : arg_exists ip src m (linear cols f) ->
  convolved ar ip src rows cols (vector_kernel fl) SkipNoDataCells SkipOutOfImage true m f =
  combined fl ar ip src rows cols m f.
Proof.
  intros [_ Hx]. unfold convolved, combined, value_at, arg_at. cbn [andb].
  destruct (nd_at ip m (linear cols f)); [reflexivity|].
  destruct (mval m src (linear cols f)); [|congruence]. cbn [also].
  rewrite contributions_around. unfold sum_around, weight_around.
  destruct (around fl ip src rows cols m f) eqn:E; [reflexivity|].
  unfold total. cbn [weigh_values vector_kernel square]. reflexivity.
Qed.
End Around.

(** ** Lax *)
Section Lax.
Context {V SV SW : Type}.
Variable fl : floats V.
Variables (rows cols : Z).
Hypothesis Hrows : 2 <= rows < 2 ^ 64.
Hypothesis Hcols : 2 <= cols < 2 ^ 64.
Variable ar : arith V V SV SW.
Hypothesis Hzero : nonzero ar (lit fl 0) = false.
Hypothesis Htwo : nonzero ar (lit fl 2) = true.
Hypothesis Hthree : nonzero ar (lit fl 3) = true.
Variables (ip : inpol V) (op : outpol V).
Variables (value result multiplied fraction rest : buf) (fr : V).
Variable m : mem V.
Hypothesis Hdist : NoDup [value; result; multiplied; fraction; rest].
Hypothesis Hip : forall b, In b [result; multiplied] -> looks_elsewhere ip b.
Hypothesis Hop : op = DontMarkNoData \/ op = MarkByMask result true.
Hypothesis Hscal : lax_scalars fl fraction rest fr m.
Hypothesis Hex : forall i, 0 <= i < rows * cols ->
  arg_exists ip value m i /\ result_exists op result m i /\ mval m multiplied i <> None.

Notation L := [result; multiplied].
Let cell i := (i / cols, i mod cols).

Lemma linear_cell i : linear cols (cell i) = i.
Proof.
  unfold linear, cell. cbn [fst snd]. rewrite (Z.mul_comm (i / cols)). symmetry. apply Z.div_mod.
  clear - Hcols. lia.
Qed.

Lemma vector_large : large_enough rows cols (vector_kernel fl) SkipOutOfImage.
Proof. unfold large_enough. cbn. lia. Qed.

Lemma op_mask c : mask_buffer op = Some c -> c = result.
Proof. destruct Hop as [-> | ->]; cbn; congruence. Qed.

(** Value and mark after a step. *)
Lemma step_value rb mk mk1 i o v : holds op rb mk mk1 i o -> mval mk rb i = Some v ->
  mval mk1 rb i = Some (match o with Value r | OutOfRange r => r | NoData => v end).
Proof. intros [H _] E. rewrite H, E. destruct Hop as [-> | ->]; destruct o; auto. Qed.

Lemma step_mask rb mk mk1 i o x : holds op rb mk mk1 i o -> op = MarkByMask result true ->
  mmsk mk result i = Some x ->
  mmsk mk1 result i = Some (x || match o with Value _ => false | _ => true end).
Proof.
  intros [_ H] E Ex. rewrite E in H. rewrite (H result eq_refl), Ex. destruct o, x; auto.
Qed.

Lemma lax_steps :
  exists m1, leaves (lax_calls fl rows cols ar ip op value result multiplied fraction rest) m m1 /\
    track L m m1 /\
    forall i v old, 0 <= i < rows * cols -> mval m value i = Some v -> mval m result i = Some old ->
      mval m1 result i = Some (if nd_at ip m i then old
        else lax_value fl ar ip value rows cols m fr (cell i) v old) /\
      (op = MarkByMask result true -> forall x, mmsk m result i = Some x ->
         mmsk m1 result i = Some (x || match lax_at fl ar ip value rows cols m fr (cell i) with
                                       | Some _ => false | None => true end)).
Proof.
  pose proof Hdist as Hd. clear Hdist.
  repeat match goal with H : NoDup (_ :: _) |- _ => let H1 := fresh "Nd" in let H2 := fresh "Nd" in
    apply NoDup_cons_iff in H as [H1 H2]; cbn [In] in H1 end.
  destruct Hscal as (C1 & C2).
  assert (Nc : forall c, In c [value; fraction; rest] -> ~ In c L).
  { cbn. intros c Hc Hc'. intuition (subst; tauto). }
  assert (Rr : 0 <= rows < 2 ^ 64) by lia. assert (Rc : 0 <= cols) by lia.
  assert (Mr : forall b : buf, marks_result op b) by (intros; destruct Hop as [-> | ->]; exact I).
  assert (Next : forall mk mk1 rb l, track L m mk -> changes_only op rb l mk mk1 -> dom_eq mk mk1 -> In rb L -> track L m mk1).
  { intros mk mk1 rb l T C D I0. apply (track_step _ _ _ _ _ _ _ T C D); [auto|].
    intros c Ec. rewrite (op_mask c Ec). cbn. auto. }
  assert (Res : forall mk rb i, track L m mk -> In rb L -> 0 <= i < rows * cols -> result_exists op rb mk i).
  { intros mk rb i T Hb Hi. destruct (Hex i Hi) as (_ & [Hv Hm] & Hmul). split.
    - destruct Hb as [<- | [<- | []]]; eapply track_exists; eauto.
    - destruct Hop as [-> | ->]; [exact I|]. eapply track_mask; eauto. }
  assert (Val : forall mk i, track L m mk -> 0 <= i < rows * cols -> arg_exists ip value mk i).
  { intros mk i T Hi. destruct (Hex i Hi) as (Ha & _). apply (track_arg L m mk ip value i T Hip); auto.
    apply Nc; cbn; auto. }
  unfold lax_calls.
  pose proof (track_refl L m) as T0.
  (* the convolution *)
  eapply leaves_computes; [apply (convolution_computes fl rows cols ar ip op value result
    [2; 3; 2; 3; 0; 3; 2; 3; 2] SkipNoDataCells SkipOutOfImage m vector_large)|].
  { split; [|split; [|split]].
    - intros i Hi. split; [apply Val; auto|apply Res; cbn; auto].
    - intros E; subst; intuition.
    - apply apart_elsewhere; [apply Hip; cbn; auto|]. apply op_mask.
    - apply Mr. }
  intros m1 H1 Ch1 D1.
  assert (T1 : track L m m1) by (apply (Next _ _ _ _ T0 Ch1 D1); cbn; auto).
  (* times the fraction *)
  eapply leaves_computes; [apply (scale_computes fl rows cols Rr Rc ip op fraction result result m1 fr); [apply Mr|intros E; subst; tauto| |]|].
  { rewrite (track_val L m m1) by (auto; apply Nc; cbn; auto). exact C1. }
  { intros i Hi. pose proof (Res m1 result i T1 ltac:(cbn; auto) Hi) as R. split; [|exact R]. split; [|apply R].
    destruct (Val m1 i T1 Hi) as [A _]. exact A. }
  intros m2 H2 Ch2 D2.
  assert (T2 : track L m m2) by (apply (Next _ _ _ _ T1 Ch2 D2); cbn; auto).
  (* the value times the rest *)
  eapply leaves_computes; [apply (scale_computes fl rows cols Rr Rc ip op rest value multiplied m2 (fsub fl (lit fl 1) fr)); [apply Mr|intros E; subst; tauto| |]|].
  { rewrite (track_val L m m2) by (auto; apply Nc; cbn; auto). exact C2. }
  { intros i Hi. split; [apply Val; auto|apply Res; cbn; auto]. }
  intros m3 H3 Ch3 D3.
  assert (T3 : track L m m3) by (apply (Next _ _ _ _ T2 Ch3 D3); cbn; auto).
  (* the sum *)
  eapply leaves_computes; [apply (binary_computes fl rows cols Rr Rc (fadd fl) SkipNoData ip op multiplied result result m3); [apply Mr|]|].
  { intros i Hi. pose proof (Res m3 result i T3 ltac:(cbn; auto) Hi) as R.
    pose proof (Res m3 multiplied i T3 ltac:(cbn; auto) Hi) as R'. split; [split; [exact I|apply R']|].
    split; [|exact R]. split; [|apply R]. destruct (Val m3 i T3 Hi) as [A _]. exact A. }
  intros m4 H4 Ch4 D4.
  assert (T4 : track L m m4) by (apply (Next _ _ _ _ T3 Ch4 D4); cbn; auto).
  exists m4. split; [apply leaves_nil|]. split; [exact T4|].
  intros i v old Hi Hv Ho. specialize (H1 i Hi). specialize (H2 i Hi). specialize (H3 i Hi). specialize (H4 i Hi).
  cbn beta in H1, H2, H3, H4.
  assert (Ec : convolved ar ip value rows cols (square fl [2; 3; 2; 3; 0; 3; 2; 3; 2]) SkipNoDataCells
     SkipOutOfImage true m (i / cols, i mod cols) = combined fl ar ip value rows cols m (cell i)).
  { apply combined_convolved; auto. rewrite linear_cell. apply Hex; auto. }
  rewrite Ec in H1.
  destruct (track_nd L m m1 ip i T1 Hip) as [N1 _]. destruct (track_nd L m m2 ip i T2 Hip) as [N2 _].
  destruct (track_nd L m m3 ip i T3 Hip) as [N3 _].
  unfold arg_at in H2, H3, H4. rewrite N1 in H2. rewrite N2 in H3. rewrite N3 in H4. cbn [nd_at] in H4.
  pose proof (track_val L m m2 value i T2 ltac:(apply Nc; cbn; auto)) as V2.
  assert (M3 : mval m3 result i = mval m2 result i).
  { apply Ch3. left. intros E; subst; intuition. }
  pose proof (step_value _ _ _ _ _ _ H1 Ho) as A1.
  pose proof (step_value _ _ _ _ _ _ H2 A1) as A2.
  assert (A3 : exists w, mval m2 multiplied i = Some w).
  { destruct (Res m2 multiplied i T2 ltac:(cbn; auto) Hi) as [A _].
    destruct (mval m2 multiplied i) as [w|]; [eauto|congruence]. }
  destruct A3 as [w A3]. pose proof (step_value _ _ _ _ _ _ H3 A3) as A3'.
  rewrite M3 in H4. assert (A4 := A2). rewrite <- M3 in A4. pose proof (step_value _ _ _ _ _ _ H4 A4) as A5.
  rewrite V2, Hv in A3', H3.
  rewrite A1 in A2, H2, A5. rewrite A2, A3' in A5, H4.
  split.
  - rewrite A5. unfold lax_value. destruct (nd_at ip m i) eqn:En; cbn.
    + replace (combined fl ar ip value rows cols m (cell i)) with (@None V); [reflexivity|].
      unfold combined, value_at, arg_at. rewrite linear_cell, En. reflexivity.
    + f_equal. destruct (combined fl ar ip value rows cols m (cell i)); cbn;
      repeat (match goal with |- context[if finite fl ?x then _ else _] => destruct (finite fl x) end; cbn); auto.
  - intros Eo x Hx.
    pose proof (step_mask _ _ _ _ _ _ H1 Eo Hx) as B1.
    pose proof (step_mask _ _ _ _ _ _ H2 Eo B1) as B2.
    pose proof (step_mask _ _ _ _ _ _ H3 Eo B2) as B3.
    pose proof (step_mask _ _ _ _ _ _ H4 Eo B3) as B4.
    rewrite B4. f_equal. unfold lax_at. rewrite <- !orb_assoc. f_equal.
    destruct (nd_at ip m i) eqn:En.
    + replace (combined fl ar ip value rows cols m (cell i)) with (@None V); [reflexivity|].
      unfold combined, value_at, arg_at. rewrite linear_cell, En. reflexivity.
    + unfold value_at, arg_at. rewrite linear_cell, En, Hv. unfold checked.
      destruct (combined fl ar ip value rows cols m (cell i)); [|reflexivity]. cbn.
      repeat (match goal with |- context[if finite fl ?x then _ else _] => destruct (finite fl x) end; cbn); auto.
Qed.
End Lax.

(** ** Laplacian *)
Section Laplacian.
Context {V SV SW : Type}.
Variable fl : floats V.
Variables (rows cols : Z).
Hypothesis Hrows : 2 <= rows < 2 ^ 64.
Hypothesis Hcols : 2 <= cols < 2 ^ 64.
Variable ar : arith V V SV SW.
Hypothesis Hzero : nonzero ar (lit fl 0) = false.
Hypothesis Htwo : nonzero ar (lit fl 2) = true.
Hypothesis Hthree : nonzero ar (lit fl 3) = true.
Variables (ip : inpol V).
Variables (value result defined defined_as_floats sum_of_weights multiplied zero area : buf) (ca : V).
Variable m : mem V.
Hypothesis Hdist : NoDup [value; result; defined; defined_as_floats; sum_of_weights; multiplied; zero; area].
Notation L := [result; defined; defined_as_floats; sum_of_weights; multiplied].
Hypothesis Hip : forall b, In b L -> looks_elsewhere ip b.
Hypothesis Hscal : laplacian_scalars fl zero area ca m.
Hypothesis Harg : forall i, 0 <= i < rows * cols -> arg_exists ip value m i.
Hypothesis Htmp : forall b i, In b [defined; defined_as_floats; sum_of_weights; multiplied] ->
  0 <= i < rows * cols -> mval m b i <> None.
Let cell i := (i / cols, i mod cols).
Notation around f := (around fl ip value rows cols m f).
Notation W f := (normalize ar (ones_around fl ar ip value rows cols m f) (weight_around fl ar ip value rows cols m f)).

Lemma linear_cell' i : linear cols (cell i) = i.
Proof. apply linear_cell. exact Hcols. Qed.

Lemma in_image_linear f : in_image rows cols f = true -> 0 <= linear cols f < rows * cols.
Proof. intros H. apply in_image_spec in H. unfold linear. clear - H. nia. Qed.

(** The sum of the weights, from the array of ones. *)
Lemma ones_combined mk i : track L m mk -> 0 <= i < rows * cols ->
  (forall j, 0 <= j < rows * cols -> mval mk defined_as_floats j = Some (if nd_at ip m j then lit fl 0 else lit fl 1)) ->
  convolved (discard_range_errors ar) ip defined_as_floats rows cols (square fl [2; 3; 2; 3; 0; 3; 2; 3; 2])
    SkipNoDataCells SkipOutOfImage true mk (cell i) =
  if nd_at ip m i then None else match around (cell i) with [] => None | _ => Some (W (cell i)) end.
Proof.
  intros T Hi Hd.
  assert (N : forall j, nd_at ip mk j = nd_at ip m j) by (intros j; apply (track_nd L m mk ip j T Hip)).
  change (square fl [2; 3; 2; 3; 0; 3; 2; 3; 2]) with (vector_kernel fl).
  rewrite combined_convolved; auto.
  - unfold combined, value_at, arg_at. rewrite linear_cell', N.
    destruct (nd_at ip m i); [reflexivity|]. rewrite Hd by auto. cbn [also].
    assert (E : VectorSpec.around fl ip defined_as_floats rows cols mk (cell i) =
       map (fun x => (lit fl 1, snd x)) (around (cell i))).
    { unfold VectorSpec.around.
      generalize ([(-1, -1, 2); (-1, 0, 3); (-1, 1, 2); (0, -1, 3); (0, 1, 3); (1, -1, 2); (1, 0, 3); (1, 1, 2)]).
      intros l. induction l as [|[d w] l IH]; [reflexivity|]. cbn [flat_map]. rewrite IH, map_app. f_equal.
      cbv zeta. cbn [fst snd].
      set (c := (fst (cell i) + fst d, snd (cell i) + snd d)).
      destruct (in_image rows cols c) eqn:Ei; [|reflexivity].
      apply in_image_linear in Ei. unfold value_at, arg_at. rewrite N.
      destruct (nd_at ip m (linear cols c)) eqn:En; [reflexivity|]. rewrite Hd, En by auto.
      destruct (Harg _ Ei) as [_ Hx]. destruct (mval m value (linear cols c)); [reflexivity|congruence]. }
    unfold sum_around, weight_around, ones_around. rewrite E.
    assert (F1 : forall (l : list (V * V)) s, fold_left (fun s x => add_scaled ar s (fst x) (snd x)) (map (fun x => (lit fl 1, snd x)) l) s =
      fold_left (fun s x => add_scaled ar s (lit fl 1) (snd x)) l s).
    { induction l; intros; cbn; auto. }
    assert (F2 : forall (l : list (V * V)) s, fold_left (fun s x => add_weight ar s (snd x)) (map (fun x => (lit fl 1, snd x)) l) s =
      fold_left (fun s x => add_weight ar s (snd x)) l s).
    { induction l; intros; cbn; auto. }
    change (add_scaled (discard_range_errors ar)) with (add_scaled ar).
    change (add_weight (discard_range_errors ar)) with (add_weight ar).
    change (zero_v (discard_range_errors ar)) with (zero_v ar).
    change (zero_w (discard_range_errors ar)) with (zero_w ar).
    change (normalize (discard_range_errors ar)) with (normalize ar).
    rewrite F1, F2. destruct (around (cell i)); reflexivity.
  - split; rewrite linear_cell'.
    + destruct (track_nd L m mk ip i T Hip) as [_ R]. apply R. apply Harg; auto.
    + rewrite Hd by auto. congruence.
Qed.

(** The calls until the sums of the weights have been calculated; they are the same whatever the
    storage of the result. *)
Lemma weights_steps op mk calls (Q : mem V -> Prop) :
  op = DontMarkNoData \/ op = MarkByMask result true -> track L m mk ->
  (forall i, 0 <= i < rows * cols -> result_exists op result mk i) ->
  (forall m5, track L m m5 ->
     (forall i, mval m5 result i = mval mk result i /\ mval m5 multiplied i = mval mk multiplied i /\
                mmsk m5 multiplied i = mmsk mk multiplied i) ->
     (forall i, 0 <= i < rows * cols ->
        let w := if nd_at ip m i then None else match around (cell i) with [] => None | _ => Some (W (cell i)) end in
        (forall old, mval mk sum_of_weights i = Some old ->
           mval m5 sum_of_weights i = Some (match w with Some x => x | None => old end)) /\
        (op = DontMarkNoData -> mmsk m5 result i = mmsk mk result i) /\
        (op = MarkByMask result true -> forall x, mmsk mk result i = Some x ->
           mmsk m5 result i = Some (x || match w with Some _ => false | None => true end))) ->
     exists m2, leaves calls m5 m2 /\ Q m2) ->
  exists m2, leaves (
    local_call rows cols (fill_2d SkipNoData DontMarkNoData zero defined cols) ::
    local_call rows cols (nullary_2d (fun _ => lit fl 1) ip DontMarkNoData defined cols) ::
    local_call rows cols (unary_2d (fun v => v) (fun _ => true) (fun _ _ => true)
      SkipNoData DontMarkNoData defined defined_as_floats cols) ::
    convolution_call rows cols (discard_range_errors ar) ip op defined_as_floats sum_of_weights (vector_kernel fl)
      SkipNoDataCells SkipOutOfImage :: calls) mk m2 /\ Q m2.
Proof.
  intros Hop T1 Hres K. pose proof Hdist as Hd. clear Hdist.
  repeat match goal with H : NoDup (_ :: _) |- _ => let H1 := fresh "Nd" in let H2 := fresh "Nd" in
    apply NoDup_cons_iff in H as [H1 H2]; cbn [In] in H1 end.
  destruct Hscal as (C1 & C2).
  assert (Nc : forall c, In c [value; zero; area] -> ~ In c L).
  { cbn. intros c Hc Hc'. intuition (subst; tauto). }
  assert (Rr : 0 <= rows < 2 ^ 64) by lia. assert (Rc : 0 <= cols) by lia.
  assert (Tmp : forall mk b i, track L m mk -> In b [defined; defined_as_floats; sum_of_weights; multiplied] ->
    0 <= i < rows * cols -> mval mk b i <> None).
  { intros mk' b i T Hb Hi. eapply track_exists; eauto. }
  assert (Oth : forall (b rb : buf) (mk mk1 : mem V) l i, changes_only DontMarkNoData rb l mk mk1 -> b <> rb ->
    mval mk1 b i = mval mk b i /\ mmsk mk1 b i = mmsk mk b i).
  { intros b rb mk' mk1 l i [A B] N. split; [apply A; auto|apply B]. cbn. left. congruence. }
  assert (Next : forall mk mk1 rb l, track L m mk -> changes_only DontMarkNoData rb l mk mk1 -> dom_eq mk mk1 -> In rb L -> track L m mk1).
  { intros mk' mk1 rb l T C D I0. apply (track_step _ _ _ _ _ _ _ T C D); [auto|]. cbn. congruence. }
  (* fill *)
  eapply leaves_computes.
  { apply local_computes; [exact Rr|exact Rc|].
    apply (local_disaggregate_2d (fun v : V => v) (fun _ => true) (fun _ _ => true) SkipNoData DontMarkNoData zero defined rows cols mk Rc I).
    - intros E; subst; tauto.
    - exact I.
    - split; [exact I|]. rewrite (track_val L m mk) by (auto; apply Nc; cbn; auto). congruence.
    - intros i Hi. split; [apply Tmp; cbn; auto|exact I]. }
  intros m2 H2 Ch2 D2.
  assert (T2 : track L m m2) by (apply (Next _ _ _ _ T1 Ch2 D2); cbn; auto).
  assert (X2 : forall i, 0 <= i < rows * cols -> mval m2 defined i = Some (lit fl 0)).
  { intros i Hi. destruct (H2 i Hi) as [E _]. rewrite E. cbn [nd_at]. unfold arg_at. cbn [nd_at].
    rewrite (track_val L m mk zero 0 T1) by (apply Nc; cbn; auto). rewrite C1. cbn.
    pose proof (Tmp mk defined i T1 ltac:(cbn; auto) Hi). destruct (mval mk defined i); [reflexivity|congruence]. }
  (* defined *)
  eapply leaves_computes.
  { apply local_computes; [exact Rr|exact Rc|].
    apply (local_nullary_2d (fun _ => lit fl 1) ip DontMarkNoData defined rows cols m2 Rc I).
    intros i Hi. split; [apply (track_nd L m m2 ip i T2 Hip), Harg; auto|].
    split; [apply Tmp; cbn; auto|exact I]. }
  intros m3 H3 Ch3 D3.
  assert (T3 : track L m m3) by (apply (Next _ _ _ _ T2 Ch3 D3); cbn; auto).
  assert (X3 : forall i, 0 <= i < rows * cols -> mval m3 defined i = Some (if nd_at ip m i then lit fl 0 else lit fl 1)).
  { intros i Hi. destruct (H3 i Hi) as [E _]. rewrite E, X2 by auto. unfold nullary_outcome.
    destruct (track_nd L m m2 ip i T2 Hip) as [-> _]. destruct (nd_at ip m i); reflexivity. }
  (* cast *)
  eapply leaves_computes; [apply (unary_computes rows cols Rr Rc (fun v => v) SkipNoData DontMarkNoData defined defined_as_floats m3); [exact I|]|].
  { intros i Hi. split; [split; [exact I|apply Tmp; cbn; auto]|split; [apply Tmp; cbn; auto|exact I]]. }
  intros m4 H4 Ch4 D4.
  assert (T4 : track L m m4) by (apply (Next _ _ _ _ T3 Ch4 D4); cbn; auto).
  assert (X4 : forall i, 0 <= i < rows * cols -> mval m4 defined_as_floats i = Some (if nd_at ip m i then lit fl 0 else lit fl 1)).
  { intros i Hi. destruct (H4 i Hi) as [E _]. rewrite E. unfold arg_at. cbn [nd_at]. rewrite X3 by auto. cbn.
    pose proof (Tmp m3 defined_as_floats i T3 ltac:(cbn; auto) Hi). destruct (mval m3 defined_as_floats i); [reflexivity|congruence]. }
  (* the sums of the weights *)
  assert (B4 : forall b i, In b [result; sum_of_weights; multiplied] -> mval m4 b i = mval mk b i /\ mmsk m4 b i = mmsk mk b i).
  { intros b i Hb.
    destruct (Oth b _ _ _ _ i Ch2) as [A2 A2']; [cbn in Hb; intuition (subst; tauto)|].
    destruct (Oth b _ _ _ _ i Ch3) as [A3 A3']; [cbn in Hb; intuition (subst; tauto)|].
    destruct (Oth b _ _ _ _ i Ch4) as [A4 A4']; [cbn in Hb; intuition (subst; tauto)|]. split; congruence. }
  eapply leaves_computes; [apply (convolution_computes fl rows cols (discard_range_errors ar) ip op defined_as_floats sum_of_weights
    [2; 3; 2; 3; 0; 3; 2; 3; 2] SkipNoDataCells SkipOutOfImage m4 (vector_large fl rows cols Hrows Hcols ar Hzero Htwo Hthree))|].
  { split; [|split; [|split]].
    - intros i Hi. split.
      + split; [apply (track_nd L m m4 ip i T4 Hip), Harg; auto|apply Tmp; cbn; auto].
      + split; [apply Tmp; cbn; auto|]. destruct (Hres i Hi) as [_ R]. destruct Hop as [-> | ->]; [exact I|].
        destruct (B4 result i) as [_ ->]; cbn; auto.
    - intros E; subst; intuition.
    - pose proof (Hip result ltac:(cbn; auto)) as I1. pose proof (Hip sum_of_weights ltac:(cbn; auto 10)) as I2.
      destruct ip as [| |b nd|b g]; cbn in *; auto. destruct Hop as [-> | ->]; cbn; congruence.
    - destruct Hop as [-> | ->]; exact I. }
  intros m5 H5 Ch5 D5.
  assert (T5 : track L m m5).
  { apply (track_step _ _ _ _ _ _ _ T4 Ch5 D5); cbn; auto 10. intros c Ec. destruct Hop as [-> | ->]; cbn in Ec; [congruence|].
    injection Ec as <-. auto. }
  apply K; auto.
  - intros i. destruct (B4 result i) as [R1 _]; [cbn; auto|]. destruct (B4 multiplied i) as [R2 R3]; [cbn; auto|].
    rewrite <- R1, <- R2, <- R3. destruct Ch5 as [A B]. split; [apply A; left; intros E; subst; intuition|].
    split; [apply A; left; intros E; subst; intuition|]. apply B. left.
    destruct Hop as [-> | ->]; cbn; [congruence|]. intros [= E]; subst; intuition.
  - intros i Hi w.
    pose proof (ones_combined m4 i T4 Hi X4) as E. fold (cell i) in H5. specialize (H5 i Hi). cbn beta in H5.
    fold (cell i) in H5. rewrite E in H5. fold w in H5. destruct H5 as [Ha Hb].
    destruct (B4 sum_of_weights i) as [S1 _]; [cbn; auto|]. destruct (B4 result i) as [_ S2]; [cbn; auto|].
    split; [|split].
    + intros old Ho. rewrite Ha, S1, Ho. destruct w; cbn; auto. destruct Hop as [-> | ->]; auto.
    + intros Eo. rewrite <- S2. apply Ch5. left. rewrite Eo. cbn. congruence.
    + intros Eo x Hx. rewrite Eo in Hb. rewrite (Hb result eq_refl), S2, Hx. destruct w, x; auto.
Qed.

Lemma first_step op : op = DontMarkNoData \/ op = MarkByMask result true ->
  (forall i, 0 <= i < rows * cols -> result_exists op result m i) ->
  call_computes rows cols (convolution_call rows cols ar ip op value result (vector_kernel fl) SkipNoDataCells SkipOutOfImage)
    op result (fun i => value_or_no_data (combined fl ar ip value rows cols m (cell i))) m.
Proof.
  intros Hop Hres.
  assert (Dvr : value <> result).
  { apply NoDup_cons_iff in Hdist as [Nd _]. cbn [In] in Nd. intros E; subst; intuition. }
  destruct (convolution_computes fl rows cols ar ip op value result
    [2; 3; 2; 3; 0; 3; 2; 3; 2] SkipNoDataCells SkipOutOfImage m (vector_large fl rows cols Hrows Hcols ar Hzero Htwo Hthree))
    as (m1 & R & H & Q).
  { split; [|split; [|split]].
    - intros i Hi. split; auto.
    - exact Dvr.
    - apply apart_elsewhere; [apply Hip; cbn; auto|]. destruct Hop as [-> | ->]; cbn; congruence.
    - destruct Hop as [-> | ->]; exact I. }
  exists m1. split; [exact R|]. split; [|exact Q]. intros i Hi. specialize (H i Hi). cbn beta in H.
  rewrite (combined_convolved fl ar ip value rows cols m Hzero Htwo Hthree) in H; [exact H|].
  change (i / cols, i mod cols) with (cell i). rewrite linear_cell'. apply Harg. apply in_zrange in Hi. exact Hi.
Qed.

Lemma value_cell i : value_at ip value cols m (cell i) = arg_at ip value m i.
Proof. unfold value_at. rewrite linear_cell'. reflexivity. Qed.

Lemma laplacian_marking : stored (rows * cols) HasMask result m -> fresh (rows * cols) HasMask multiplied m ->
  exists m1, leaves (laplacian_calls fl rows cols ar HasMask ip (MarkByMask result true)
      value result defined defined_as_floats sum_of_weights multiplied zero area) m m1 /\
    track L m m1 /\
    forall i, 0 <= i < rows * cols ->
      seen result m1 i = (if masked result m i then None
        else laplacian_at fl ar ip value rows cols m ca (cell i)) /\
      (nd_at ip m i = true -> mval m1 result i = mval m result i).
Proof.
  intros Sr Fm.
  assert (Sr' : forall i, 0 <= i < rows * cols -> mval m result i <> None /\ mmsk m result i <> None).
  { intros i Hi. destruct (Sr i Hi) as [A B]. auto. }
  assert (Fm' : forall i, 0 <= i < rows * cols -> mval m multiplied i <> None /\ mmsk m multiplied i <> None).
  { intros i Hi. destruct (Fm i Hi) as [A B]. rewrite (B eq_refl). split; [auto|congruence]. }
  pose proof Hdist as Hd. apply NoDup_cons_iff in Hd as [Nd Hd]. cbn [In] in Nd.
  repeat match goal with H : NoDup (?x :: _) |- _ => assert_fails (constr_eq x value); let H1 := fresh "Nd" in let H2 := fresh "Nd" in
    apply NoDup_cons_iff in H as [H1 H2]; cbn [In] in H1 end.
  pose proof Hscal as (C1 & C2).
  assert (Nc : forall c, In c [value; zero; area] -> ~ In c L).
  { cbn. intros c Hc Hc'. intuition (subst; tauto). }
  assert (Dmr : multiplied <> result) by (intros E; subst; intuition).
  assert (Dms : multiplied <> sum_of_weights) by (intros E; subst; intuition).
  assert (Dra : area <> result) by (intros E; subst; intuition).
  assert (Rr : 0 <= rows < 2 ^ 64) by lia. assert (Rc : 0 <= cols) by lia.
  assert (InPlace : forall mk (c : buf), track L m mk -> In c L ->
     (forall i, 0 <= i < rows * cols -> mval m c i <> None /\ mmsk m c i <> None) ->
     forall i, 0 <= i < rows * cols ->
       arg_exists (DetectByMask c true) c mk i /\ result_exists (MarkByMask c true) c mk i).
  { intros mk c T Hc Hx i Hi. destruct (Hx i Hi) as [X1 X2].
    split; split; cbn; try (eapply track_exists; eauto); eapply track_mask; eauto. }
  unfold laplacian_calls. cbn [temporary_out temporary_in].
  pose proof (track_refl L m) as T0.
  (* the convolution *)
  eapply leaves_computes; [apply first_step; [auto|intros i Hi; apply InPlace; cbn; auto]|].
  intros m1 H1 Ch1 D1.
  assert (T1 : track L m m1) by (apply (track_step _ _ _ _ _ _ _ T0 Ch1 D1); cbn; [auto|intros ? [= <-]; auto]).
  (* the weights *)
  apply (weights_steps (MarkByMask result true) m1); auto.
  { intros i Hi. apply InPlace; cbn; auto. }
  intros m5 T5 Sm5 H5.
  (* the product *)
  eapply leaves_computes; [apply (binary_computes fl rows cols Rr Rc (fmul fl) SkipNoData ip (MarkByMask multiplied true)
    sum_of_weights value multiplied m5); [exact I|]|].
  { intros i Hi. split; [split; [exact I|eapply track_exists; eauto; apply Htmp; cbn; auto]|].
    split; [apply (track_arg L m m5 ip value i T5 Hip); [apply Nc; cbn; auto|auto]|].
    apply InPlace; cbn; auto 10. }
  intros m6 H6 Ch6 D6.
  assert (T6 : track L m m6) by (apply (track_step _ _ _ _ _ _ _ T5 Ch6 D6); cbn; [auto 10|intros ? [= <-]; auto 10]).
  (* the difference *)
  eapply leaves_computes; [apply (binary_computes fl rows cols Rr Rc (fsub fl) _ _ (MarkByMask result true)
    result multiplied result m6); [exact I|]|].
  { intros i Hi. split; [apply InPlace; cbn; auto|]. split; apply InPlace; cbn; auto 10. }
  intros m7 H7 Ch7 D7.
  assert (T7 : track L m m7) by (apply (track_step _ _ _ _ _ _ _ T6 Ch7 D7); cbn; [auto|intros ? [= <-]; auto]).
  (* the quotient *)
  eapply leaves_computes; [apply (divide_computes fl rows cols Rr Rc _ _ result area result m7 ca); [exact I|exact Dra| |apply InPlace; cbn; auto]|].
  { rewrite (track_val L m m7) by (auto; apply Nc; cbn; auto). exact C2. }
  intros m8 H8 Ch8 D8.
  assert (T8 : track L m m8) by (apply (track_step _ _ _ _ _ _ _ T7 Ch8 D8); cbn; [auto|intros ? [= <-]; auto]).
  exists m8. split; [apply leaves_nil|]. split; [exact T8|]. intros i Hi.
  specialize (H1 i Hi). specialize (H6 i Hi). specialize (H7 i Hi). specialize (H8 i Hi).
  destruct (H5 i Hi) as (W5 & _ & M5). specialize (M5 eq_refl). destruct (Sm5 i) as (V5 & U5 & X5).
  cbn beta in H1, H6, H7, H8.
  set (s := combined fl ar ip value rows cols m (cell i)) in *.
  set (w := if nd_at ip m i then None else match around (cell i) with [] => None | _ :: _ => Some (W (cell i)) end) in *.
  assert (Sw : w = None -> s = None).
  { unfold s, w, combined. rewrite value_cell. unfold arg_at. destruct (nd_at ip m i); [reflexivity|].
    destruct (mval m value i); [|reflexivity]. cbn [also]. destruct (around (cell i)); [reflexivity|discriminate]. }
  destruct (Sr' i Hi) as [A B]. destruct (mark_step _ _ _ _ _ H1 A B) as [S1 K1].
  (* what is seen after the weights have been summed *)
  assert (S5 : seen result m5 i = seen result m1 i).
  { apply seen_ext; [exact V5|]. pose proof (track_mask _ _ _ _ i T1 B) as B1.
    destruct (mmsk m1 result i) as [x|] eqn:Ex; [|congruence]. rewrite (M5 x eq_refl). f_equal.
    destruct w; [apply orb_false_r|]. rewrite (Sw eq_refl) in K1. cbn in K1. rewrite orb_true_r in K1.
    unfold masked in K1. cbn in K1. rewrite Ex in K1. destruct x; [reflexivity|discriminate]. }
  assert (R6 : mval m6 result i = mval m5 result i /\ mmsk m6 result i = mmsk m5 result i).
  { apply (step_other _ _ _ result _ _ i Ch6); [congruence|]. cbn. congruence. }
  assert (S6 : seen result m6 i = if masked result m i then None else s).
  { rewrite (seen_ext result m5 m6) by apply R6. rewrite S5, S1. destruct (masked result m i); auto. destruct s; auto. }
  (* the product *)
  destruct (Fm i Hi) as [F1 F2]. specialize (F2 eq_refl).
  assert (O1 : mval m1 multiplied i = mval m multiplied i /\ mmsk m1 multiplied i = mmsk m multiplied i).
  { apply (step_other _ _ _ multiplied _ _ i Ch1); [congruence|]. cbn. congruence. }
  destruct O1 as [O1 O1'].
  assert (P6 : forall x, w = Some x -> seen multiplied m6 i =
    also (arg_at ip value m i) (fun v => checked fl (fmul fl x v))).
  { intros x Hw. destruct (mark_step _ _ _ _ _ H6) as [E _]; try congruence. rewrite E.
    unfold masked, nd_at. rewrite X5, O1', F2. cbn [Bool.eqb]. rewrite val_binary.
    assert (Es : arg_at SkipNoData sum_of_weights m5 i = Some x).
    { unfold arg_at. cbn [nd_at]. pose proof (track_exists _ _ _ _ i T1 (Htmp sum_of_weights i ltac:(cbn; auto) Hi)) as Hs.
      destruct (mval m1 sum_of_weights i) as [old|]; [|congruence]. rewrite (W5 old eq_refl), Hw. reflexivity. }
    rewrite Es. destruct (track_arg L m m5 ip value i T5 Hip) as [-> _]; [apply Nc; cbn; auto|].
    destruct (arg_at ip value m i); reflexivity. }
  (* the difference *)
  assert (Nn : forall x, s = Some x -> exists y, w = Some y /\ W (cell i) = y).
  { intros x Hx. unfold w in *. destruct (nd_at ip m i); [rewrite Sw in Hx; [discriminate|auto]|].
    destruct (around (cell i)); [rewrite Sw in Hx; [discriminate|auto]|]. eauto. }
  set (d := also s (fun s => also (arg_at ip value m i) (fun v => also (checked fl (fmul fl (W (cell i)) v))
     (fun w => checked fl (fsub fl s w))))).
  assert (A6 : mval m6 result i <> None) by (eapply track_exists; eauto).
  assert (B6 : mmsk m6 result i <> None) by (eapply track_mask; eauto).
  assert (E7 : val (binary_outcome (fsub fl) (fun _ _ => true) (fun _ _ r => finite fl r)
     (arg_at (DetectByMask result true) result m6 i) (arg_at (DetectByMask multiplied true) multiplied m6 i)) =
     if masked result m i then None else d).
  { rewrite val_binary. change (arg_at (DetectByMask result true) result m6 i) with (seen result m6 i).
    change (arg_at (DetectByMask multiplied true) multiplied m6 i) with (seen multiplied m6 i). rewrite S6.
    destruct (masked result m i); [reflexivity|]. unfold d. destruct s as [x|] eqn:Es; [|reflexivity].
    destruct (Nn x eq_refl) as (y & Ey & Ey'). rewrite (P6 y Ey), Ey'. cbn [also].
    destruct (arg_at ip value m i); [|reflexivity]. cbn [also]. destruct (checked fl _); reflexivity. }
  assert (S7 : seen result m7 i = if masked result m i then None else d).
  { rewrite (mark_step_in_place _ _ _ _ _ H7 A6 B6); [exact E7|]. intros En. rewrite E7.
    rewrite S6 in En. destruct (masked result m i); [reflexivity|]. unfold d. rewrite En. reflexivity. }
  assert (A7 : mval m7 result i <> None) by (eapply track_exists; eauto).
  assert (B7 : mmsk m7 result i <> None) by (eapply track_mask; eauto).
  split.
  - rewrite (mark_step_in_place _ _ _ _ _ H8 A7 B7).
    + rewrite val_binary. change (arg_at (DetectByMask result true) result m7 i) with (seen result m7 i). rewrite S7.
      destruct (masked result m i); [reflexivity|]. unfold d, laplacian_at. fold s. rewrite value_cell.
      destruct s; [|reflexivity]. cbn [also]. destruct (arg_at ip value m i); [|reflexivity]. cbn [also].
      destruct (checked fl (fmul fl (W (cell i)) _)); [|reflexivity]. cbn [also].
      destruct (checked fl (fsub fl _ _)); [|reflexivity]. cbn [also]. unfold divided. destruct (is_zero fl ca); reflexivity.
    + change (arg_at (DetectByMask result true) result m7 i) with (seen result m7 i). intros ->. reflexivity.
  - intros En. assert (Es : s = None).
    { apply Sw. unfold w. rewrite En. reflexivity. }
    assert (Z : forall (x : option V) c, (if masked result m i then None else also (@None V) c) = x -> x = None).
    { intros x c <-. destruct (masked result m i); reflexivity. }
    destruct H8 as [H8 _]. destruct H7 as [H7 _]. destruct H1 as [H1 _].
    change (arg_at (DetectByMask result true) result m7 i) with (seen result m7 i) in H8. rewrite S7 in H8.
    change (arg_at (DetectByMask result true) result m6 i) with (seen result m6 i) in H7. rewrite S6 in H7.
    unfold d in H8. rewrite Es in H8, H7, H1.
    assert (Q : forall o : option V, (if masked result m i then None else @None V) = None) by (destruct (masked result m i); auto).
    cbn [also] in H8. rewrite (Q None) in H8, H7. cbn in H8, H7, H1. destruct R6 as [R6 _].
    rewrite H8, H7, R6, V5, H1. destruct (mval m result i); auto.
Qed.

(** Without an output no-data policy *)
Lemma laplacian_plain st_result : stored (rows * cols) st_result result m ->
  fresh (rows * cols) st_result multiplied m -> zeros fl (rows * cols) multiplied m ->
  zeros fl (rows * cols) sum_of_weights m ->
  exists m1, leaves (laplacian_calls fl rows cols ar st_result ip DontMarkNoData
      value result defined defined_as_floats sum_of_weights multiplied zero area) m m1 /\
    track L m m1 /\
    forall i old, 0 <= i < rows * cols -> mval m result i = Some old ->
      mmsk m1 result i = mmsk m result i /\
      mval m1 result i = Some (
        if nd_at (temporary_in st_result result) m i
        then match combined fl ar ip value rows cols m (cell i) with Some s => s | None => old end
        else laplacian_value fl ar ip value rows cols m ca (cell i) old).
Proof.
  intros Sr Fm Zm Zs. pose proof Hdist as Hd. apply NoDup_cons_iff in Hd as [Nd Hd]. cbn [In] in Nd.
  repeat match goal with H : NoDup (?x :: _) |- _ => assert_fails (constr_eq x value); let H1 := fresh "Nd" in let H2 := fresh "Nd" in
    apply NoDup_cons_iff in H as [H1 H2]; cbn [In] in H1 end.
  pose proof Hscal as (C1 & C2).
  assert (Nc : forall c, In c [value; zero; area] -> ~ In c L).
  { cbn. intros c Hc Hc'. intuition (subst; tauto). }
  assert (Dmr : multiplied <> result) by (intros E; subst; intuition).
  assert (Dsr : sum_of_weights <> result) by (intros E; subst; intuition).
  assert (Dra : area <> result) by (intros E; subst; intuition).
  assert (Rr : 0 <= rows < 2 ^ 64) by lia. assert (Rc : 0 <= cols) by lia.
  assert (Next : forall mk mk1 rb l, track L m mk -> changes_only DontMarkNoData rb l mk mk1 -> dom_eq mk mk1 -> In rb L -> track L m mk1).
  { intros mk' mk1 rb l T C D I0. apply (track_step _ _ _ _ _ _ _ T C D); [auto|]. cbn. congruence. }
  assert (Sm : stored (rows * cols) st_result multiplied m).
  { intros i Hi. destruct (Fm i Hi) as [A B]. split; auto. intros E. rewrite (B E). congruence. }
  assert (Ex : forall mk b, track L m mk -> stored (rows * cols) st_result b m -> forall i, 0 <= i < rows * cols ->
    arg_exists (temporary_in st_result b) b mk i /\ result_exists DontMarkNoData b mk i).
  { intros mk b T S i Hi. destruct (S i Hi) as [S1 S2].
    pose proof (track_exists L m mk b i T S1) as E. split; [|split; [exact E|exact I]].
    split; [|exact E]. destruct st_result; [exact I|]. cbn. eapply track_mask; eauto. }
  unfold laplacian_calls. cbn [temporary_out].
  pose proof (track_refl L m) as T0.
  eapply leaves_computes; [apply first_step; [auto|intros i Hi; apply (Ex m result T0 Sr); auto]|].
  intros m1 H1 Ch1 D1.
  assert (T1 : track L m m1) by (apply (Next _ _ _ _ T0 Ch1 D1); cbn; auto).
  apply (weights_steps DontMarkNoData m1); auto.
  { intros i Hi. apply (Ex m1 result T1 Sr); auto. }
  intros m5 T5 Sm5 H5.
  eapply leaves_computes; [apply (binary_computes fl rows cols Rr Rc (fmul fl) SkipNoData ip DontMarkNoData
    sum_of_weights value multiplied m5); [exact I|]|].
  { intros i Hi. split; [split; [exact I|eapply track_exists; eauto; apply Htmp; cbn; auto]|].
    split; [apply (track_arg L m m5 ip value i T5 Hip); [apply Nc; cbn; auto|auto]|].
    apply (Ex m5 multiplied T5 Sm); auto. }
  intros m6 H6 Ch6 D6.
  assert (T6 : track L m m6) by (apply (Next _ _ _ _ T5 Ch6 D6); cbn; auto 10).
  eapply leaves_computes; [apply (binary_computes fl rows cols Rr Rc (fsub fl) _ _ DontMarkNoData
    result multiplied result m6); [exact I|]|].
  { intros i Hi. split; [apply (Ex m6 result T6 Sr); auto|]. split; [apply (Ex m6 multiplied T6 Sm); auto|apply (Ex m6 result T6 Sr); auto]. }
  intros m7 H7 Ch7 D7.
  assert (T7 : track L m m7) by (apply (Next _ _ _ _ T6 Ch7 D7); cbn; auto).
  eapply leaves_computes; [apply (divide_computes fl rows cols Rr Rc _ _ result area result m7 ca); [exact I|exact Dra| |apply (Ex m7 result T7 Sr)]|].
  { rewrite (track_val L m m7) by (auto; apply Nc; cbn; auto). exact C2. }
  intros m8 H8 Ch8 D8.
  assert (T8 : track L m m8) by (apply (Next _ _ _ _ T7 Ch8 D8); cbn; auto).
  exists m8. split; [apply leaves_nil|]. split; [exact T8|]. intros i old Hi Ho.
  specialize (H1 i Hi). specialize (H6 i Hi). specialize (H7 i Hi). specialize (H8 i Hi).
  destruct (H5 i Hi) as (W5 & M5 & _). specialize (M5 eq_refl). destruct (Sm5 i) as (V5 & U5 & X5).
  cbn beta in H1, H6, H7, H8.
  set (s := combined fl ar ip value rows cols m (cell i)) in *.
  assert (Msk : forall (mk mk1 : mem V) rb l b j, changes_only DontMarkNoData rb l mk mk1 -> mmsk mk1 b j = mmsk mk b j).
  { intros mk mk1 rb l b j [_ B]. apply B. left. cbn. congruence. }
  assert (Mr1 : mmsk m1 result i = mmsk m result i) by apply (Msk _ _ _ _ _ _ Ch1).
  assert (Mr6 : mmsk m6 result i = mmsk m result i) by (rewrite (Msk _ _ _ _ _ _ Ch6); congruence).
  assert (Mr7 : mmsk m7 result i = mmsk m result i) by (rewrite (Msk _ _ _ _ _ _ Ch7); congruence).
  assert (Mm6 : mmsk m6 multiplied i = mmsk m multiplied i).
  { rewrite (Msk _ _ _ _ _ _ Ch6), X5. apply (Msk _ _ _ _ _ _ Ch1). }
  split; [rewrite (Msk _ _ _ _ _ _ Ch8); exact Mr7|].
  pose proof (plain_step _ _ _ _ _ _ _ eq_refl H1 Ho) as A1.
  assert (S1 : mval m1 sum_of_weights i = Some (lit fl 0)).
  { rewrite <- (Zs i Hi). apply Ch1. left. congruence. }
  assert (P1 : mval m1 multiplied i = Some (lit fl 0)).
  { rewrite <- (Zm i Hi). apply Ch1. left. congruence. }
  specialize (W5 _ S1). assert (P5 := P1). rewrite <- U5 in P5.
  pose proof (plain_step _ _ _ _ _ _ _ eq_refl H6 P5) as A6.
  assert (B6 : mval m6 result i = mval m1 result i).
  { rewrite <- V5. apply Ch6. left. congruence. }
  assert (A6' := A1). rewrite <- B6 in A6'.
  pose proof (plain_step _ _ _ _ _ _ _ eq_refl H7 A6') as A7.
  pose proof (plain_step _ _ _ _ _ _ _ eq_refl H8 A7) as A8.
  assert (Es : match value_or_no_data s with Value r => r | NoData => old | OutOfRange r => r end =
    match s with Some s => s | None => old end) by (destruct s; reflexivity).
  rewrite Es in *. set (x := match s with Some s => s | None => old end) in *. clear Es A1.
  assert (N7 : nd_at (temporary_in st_result result) m7 i = nd_at (temporary_in st_result result) m i).
  { destruct st_result; cbn; rewrite ?Mr7; auto. }
  assert (N6 : nd_at (temporary_in st_result result) m6 i = nd_at (temporary_in st_result result) m i).
  { destruct st_result; cbn; rewrite ?Mr6; auto. }
  assert (K6 : nd_at (temporary_in st_result multiplied) m6 i = false).
  { destruct st_result; cbn; auto. rewrite Mm6. destruct (Fm i Hi) as [_ F]. rewrite (F eq_refl). reflexivity. }
  assert (Fin : forall (b : bool) (r y : V), match (if b then Value r else OutOfRange r) with Value r => r | NoData => y | OutOfRange r => r end = r) by (intros []; reflexivity).
  (* the product *)
  set (wv := match arg_at ip value m i with
    | Some v => fmul fl (match around (cell i) with [] => lit fl 0 | _ :: _ => W (cell i) end) v
    | None => lit fl 0 end).
  assert (Q6 : mval m6 multiplied i = Some wv).
  { rewrite A6. f_equal. unfold arg_at. cbn [nd_at]. rewrite W5.
    destruct (track_nd L m m5 ip i T5 Hip) as [-> _].
    rewrite (track_val L m m5 value i T5) by (apply Nc; cbn; auto).
    unfold wv, arg_at. destruct (nd_at ip m i); [reflexivity|]. destruct (mval m value i); [|reflexivity].
    cbn [binary_outcome]. rewrite Fin. destruct (around (cell i)); reflexivity. }
  unfold arg_at in A7. rewrite N6, K6, A6', Q6 in A7. unfold arg_at in A8. rewrite N7, N6, K6, A6', Q6 in A8. rewrite A8. f_equal.
  destruct (nd_at (temporary_in st_result result) m i); [reflexivity|].
  rewrite A7. cbn [binary_outcome]. rewrite Fin. unfold laplacian_value. fold s. fold x. rewrite value_cell. fold wv.
  destruct (is_zero fl ca); [reflexivity|]. cbn [negb]. apply Fin.
Qed.
End Laplacian.
