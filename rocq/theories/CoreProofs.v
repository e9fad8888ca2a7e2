(** Lemmas about selecting algorithms. *)
From Coq Require Import ZArith List Bool Lia.
From Verif Require Import LangModel LangProofs ConcModel IndexModel IndexSpec IndexProofs
  LoopModel LoopSpec LoopProofs PolicyModel LocalModel LocalSpec LocalProofs CoreModel CoreSpec.
Import ListNotations.
Open Scope Z_scope.

Section Core.
Context {V : Type}.
Implicit Types m : mem V.
Implicit Types op : outpol V.
Implicit Types ip : inpol V.

(** ** Tests: programs that only read *)

Definition tests (t : prog V bool) m (b : bool) : Prop := run t m = Some (b, m).

Lemma tests_nd ip m i : readable ip m i -> tests (is_no_data ip i) m (nd_at ip m i).
Proof. apply run_nd. Qed.

Lemma tests_cond truth c m i x : mval m c i = Some x -> tests (cond truth c i) m (truth x).
Proof. intros H. unfold tests, cond. rewrite (run_rdv _ _ _ _ x) by auto. reflexivity. Qed.

Lemma tests_not t m b : tests t m b -> tests (notp t) m (negb b).
Proof. intros H. unfold tests, notp. rewrite run_bind, H. reflexivity. Qed.

Lemma run_ifp {A} t (p q : prog V A) m b : tests t m b ->
  run (ifp t p q) m = run (if b then p else q) m.
Proof. intros H. unfold ifp. rewrite run_bind, H. destruct b; auto. Qed.

Lemma tests_and t u m b c : tests t m b -> (b = true -> tests u m c) ->
  tests (andp t u) m (b && c).
Proof.
  intros H1 H2. unfold tests, andp. rewrite (run_ifp _ _ _ _ b) by auto.
  destruct b; [apply H2; auto|reflexivity].
Qed.

Lemma tests_or t u m b c : tests t m b -> (b = false -> tests u m c) ->
  tests (orp t u) m (b || c).
Proof.
  intros H1 H2. unfold tests, orp. rewrite (run_ifp _ _ _ _ b) by auto.
  destruct b; [reflexivity|apply H2; auto].
Qed.

(** ** Footprints *)

Lemma own_ifp {A} S rb mb t (p q : prog V A) :
  own S rb mb t -> own S rb mb p -> own S rb mb q -> own S rb mb (ifp t p q).
Proof. intros; apply own_bind; auto. intros c; apply own_if; auto. Qed.

Lemma own_notp S rb mb (t : prog V bool) : own S rb mb t -> own S rb mb (notp t).
Proof. intros; apply own_bind; auto. intros c; exact I. Qed.

Lemma own_andp S rb mb (t u : prog V bool) :
  own S rb mb t -> own S rb mb u -> own S rb mb (andp t u).
Proof. intros; apply own_ifp; auto. exact I. Qed.

Lemma own_orp S rb mb (t u : prog V bool) :
  own S rb mb t -> own S rb mb u -> own S rb mb (orp t u).
Proof. intros; apply own_ifp; auto. exact I. Qed.

Lemma own_cond truth c rb mb i : own (Z.eqb i) rb mb (cond truth c i : prog V bool).
Proof. apply own_bind; [apply own_rdv|intros; exact I]. Qed.

Lemma own_cond_apart truth S c rb mb i : c <> rb -> own S rb mb (cond truth c i : prog V bool).
Proof. intros; apply own_bind; [apply own_rdv_other; auto|intros; exact I]. Qed.

Lemma own_assign a rb mb i : own (Z.eqb i) rb mb (assign a i rb i : prog V unit).
Proof. apply own_bind; [apply own_rdv|intros; apply own_wrv]. Qed.

Lemma own_assign_apart a ia rb mb i : a <> rb ->
  own (Z.eqb i) rb mb (assign a ia rb i : prog V unit).
Proof. intros; apply own_bind; [apply own_rdv_other; auto|intros; apply own_wrv]. Qed.

(** ** Outcomes of assignments *)

Lemma run_assign op a ia rb m i x : result_exists op rb m i -> mval m a ia = Some x ->
  exists ms, run (assign a ia rb i) m = Some (tt, ms) /\ holds op rb m ms i (Value x).
Proof.
  intros [Hv _] Hx. unfold assign. rewrite (run_rdv _ _ _ _ x) by auto. cbn.
  destruct (mval m rb i) as [old|] eqn:E; [|congruence].
  eexists; split; [reflexivity|]. split; simpl.
  - rewrite same_refl, E; auto.
  - intros c _. destruct (mmsk m c i); auto.
Qed.

Lemma run_skip op rb m i x : mval m rb i = Some x ->
  exists ms, run (skip : prog V unit) m = Some (tt, ms) /\ holds op rb m ms i (Value x).
Proof.
  intros E. exists m; split; [reflexivity|]. split.
  - rewrite E; auto.
  - intros c _. destruct (mmsk m c i); auto.
Qed.

(** ** A loop selected by a test that does not depend on the result *)

Lemma read_only {A} rb mb (t : prog V A) m m' b m0 : own (fun _ => false) rb mb t ->
  (forall l, setW rb mb (fun _ => true) l = false -> same_at m' m l) ->
  run t m = Some (b, m0) -> m0 = m /\ run t m' = Some (b, m').
Proof.
  intros Ho Hs.
  induction t as [a0|x i k IH|x i v k IH|x i k IH|x i v k IH|]; intros Hr; cbn in *.
  - inversion Hr; auto.
  - destruct Ho as [Hl Ho]. cbn in Hl. rewrite andb_false_r, !orb_false_r in Hl.
    assert (E : mval m' x i = mval m x i).
    { apply (Hs (LV x i)). cbn. destruct (Nat.eqb x rb); auto; discriminate. }
    rewrite E. destruct (mval m x i); [|discriminate]. eapply IH; [apply Ho|auto].
  - destruct Ho as [Hl _]. rewrite andb_false_r in Hl; discriminate.
  - destruct Ho as [Hl Ho].
    assert (E : mmsk m' x i = mmsk m x i).
    { apply (Hs (LM x i)). cbn. destruct mb as [c|]; auto. cbn in Hl.
      rewrite andb_false_r, !orb_false_r in Hl. destruct (Nat.eqb x c); auto; discriminate. }
    rewrite E. destruct (mmsk m x i); [|discriminate]. eapply IH; [apply Ho|auto].
  - destruct Ho as [Hl _]. destruct mb; [rewrite andb_false_r in Hl|]; discriminate.
  - discriminate.
Qed.

Lemma tests_stable rb mb (t : prog V bool) b : own (fun _ => false) rb mb t ->
  stable rb mb (fun m => tests t m b).
Proof. intros Ho m m' Hs Ht. eapply read_only; eauto. Qed.

Lemma own_none {A} S rb mb (t : prog V A) : own (fun _ => false) rb mb t -> own S rb mb t.
Proof. apply own_weaken. discriminate. Qed.

Definition own_all1 op rb size (f : range -> prog V unit) : Prop :=
  forall r, 0 <= rbegin r -> rend r <= size -> own (memZ (indices r)) rb (mask_buffer op) (f r).
Definition own_all2 op rb rows cols (f : block2 -> prog V unit) : Prop :=
  forall blk, 0 <= rbegin (fst blk) -> rend (fst blk) <= rows -> snd blk = whole1 cols ->
    own (memZ (block_elements cols blk)) rb (mask_buffer op) (f blk).

Lemma own_all1_loop op rb size body : elementwise rb (mask_buffer op) (zrange 0 size) body ->
  own_all1 op rb size (fun r => loop1 r body).
Proof.
  intros Hel r Hb He. apply own_loop1. intros i Hi. apply Hel.
  apply in_zrange in Hi. apply in_zrange; lia.
Qed.

Lemma own_all2_loop op rb rows cols body : 0 <= cols ->
  elementwise rb (mask_buffer op) (zrange 0 (rows * cols)) body ->
  own_all2 op rb rows cols (fun blk => loop2 cols blk body).
Proof.
  intros Hc Hel r Hb He Hcs. apply own_loop2. intros i Hi.
  apply Hel, in_zrange. eapply block_in_raster; eauto.
Qed.

Lemma own_all1_ifp op rb size t f1 f2 : own (fun _ => false) rb (mask_buffer op) t ->
  own_all1 op rb size f1 -> own_all1 op rb size f2 ->
  own_all1 op rb size (fun r => ifp t (f1 r) (f2 r)).
Proof. intros Ht H1 H2 r Hb He. apply own_ifp; auto. apply own_none; auto. Qed.

Lemma own_all2_ifp op rb rows cols t f1 f2 : own (fun _ => false) rb (mask_buffer op) t ->
  own_all2 op rb rows cols f1 -> own_all2 op rb rows cols f2 ->
  own_all2 op rb rows cols (fun r => ifp t (f1 r) (f2 r)).
Proof. intros Ht H1 H2 r Hb He Hc. apply own_ifp; auto. apply own_none; auto. Qed.

Lemma local1_ifp op rb size t b f1 f2 (o : Z -> outcome V) m :
  own (fun _ => false) rb (mask_buffer op) t -> tests t m b ->
  own_all1 op rb size f1 -> own_all1 op rb size f2 ->
  local1 op rb size (if b then f1 else f2) o m ->
  local1 op rb size (fun r => ifp t (f1 r) (f2 r)) o m.
Proof.
  intros Ho Ht Hw1 Hw2 (body & P & Hst & HP & Hlike & Hel & Hrun).
  exists body, (fun m => P m /\ tests t m b).
  split; [apply stable_and; auto; apply tests_stable; auto|]. split; [auto|].
  split; [|auto]. intros r Hb He. split.
  - apply own_ifp; auto. apply own_none; auto.
  - intros m' [HP' Ht']. rewrite (run_ifp _ _ _ _ b) by auto.
    destruct (Hlike r Hb He) as [_ E]. rewrite <- E by auto. destruct b; auto.
Qed.

Lemma local2_ifp op rb rows cols t b f1 f2 (o : Z -> outcome V) m :
  own (fun _ => false) rb (mask_buffer op) t -> tests t m b ->
  own_all2 op rb rows cols f1 -> own_all2 op rb rows cols f2 ->
  local2 op rb rows cols (if b then f1 else f2) o m ->
  local2 op rb rows cols (fun r => ifp t (f1 r) (f2 r)) o m.
Proof.
  intros Ho Ht Hw1 Hw2 (body & P & Hst & HP & Hlike & Hel & Hrun).
  exists body, (fun m => P m /\ tests t m b).
  split; [apply stable_and; auto; apply tests_stable; auto|]. split; [auto|].
  split; [|auto]. intros r Hb He Hc. split.
  - apply own_ifp; auto. apply own_none; auto.
  - intros m' [HP' Ht']. rewrite (run_ifp _ _ _ _ b) by auto.
    destruct (Hlike r Hb He Hc) as [_ E]. rewrite <- E by auto. destruct b; auto.
Qed.

(** ** From local operations to both execution policies *)

Lemma local1_computes op rb size opf o m : 0 <= size -> local1 op rb size opf o m ->
  computes_1d opf op rb size o m.
Proof.
  intros Hs Hl. destruct (local1_sequential _ _ _ _ _ _ Hs Hl) as (m1 & R & H & C).
  exists m1. split; [auto|]. split; [auto|]. split; [auto|].
  intros Hlt n Hn. eapply local1_parallel; eauto.
Qed.

Lemma local2_computes op rb rows cols opf o m : 0 <= rows -> 0 <= cols ->
  local2 op rb rows cols opf o m -> computes_2d opf op rb rows cols o m.
Proof.
  intros Hr Hc Hl. destruct (local2_sequential _ _ _ _ _ _ _ Hr Hc Hl) as (m1 & R & H & C).
  exists m1. split; [auto|]. split; [auto|]. split; [auto|].
  intros Hlt n Hn. eapply local2_parallel; eauto.
Qed.

(** A single element. *)
Lemma element_computes op rb (p : prog V unit) (o : outcome V) m :
  own (Z.eqb 0) rb (mask_buffer op) p ->
  (exists ms, run p m = Some (tt, ms) /\ holds op rb m ms 0 o) ->
  computes p op rb 1 (fun _ => o) m.
Proof.
  intros Ho (ms & R & H). exists ms. split; [auto|]. split.
  - intros i Hi. assert (i = 0) by lia; subst; auto.
  - split; intros b i Hb.
    + apply (run_frame _ _ _ _ _ _ Ho R (LV b i)). cbn.
      destruct (Nat.eqb_spec b rb); auto. cbn. destruct Hb as [|Hb]; [congruence|].
      destruct i; auto. exfalso; apply Hb, in_zrange; lia.
    + apply (run_frame _ _ _ _ _ _ Ho R (LM b i)). cbn.
      destruct (mask_buffer op) as [c|]; auto.
      destruct (Nat.eqb_spec b c); auto. cbn. destruct Hb as [|Hb]; [congruence|].
      destruct i; auto. exfalso; apply Hb, in_zrange; lia.
Qed.
End Core.

(** ** Tactics: footprints and outcomes of cells *)

Ltac own_tac := repeat first
  [ assumption
  | apply own_ifp | apply own_notp | apply own_andp | apply own_orp
  | apply own_mark; assumption
  | apply own_nd_apart; assumption
  | apply own_cond_apart; assumption
  | apply own_nd | apply own_cond | apply own_assign
  | apply own_assign_apart; assumption
  | apply own_none; assumption
  | apply own_if
  | exact I ].

(** Decide a test. *)
Ltac tests_tac := repeat first
  [ eassumption
  | eapply tests_not | eapply tests_and; [|intros _] | eapply tests_or; [|intros _]
  | eapply tests_nd; eassumption
  | eapply tests_cond; eassumption ].

Ltac known_tac := repeat
  match goal with
  | E : nd_at _ _ _ = _ |- _ => rewrite E
  | E : @eq bool _ _ |- _ => rewrite E
  end; cbn [negb andb orb].

Ltac run_tac := repeat first
  [ apply run_mark; assumption
  | apply run_assign; assumption
  | erewrite run_ifp by tests_tac; known_tac
  | match goal with
    | |- context [nd_at ?ip ?m ?i] => let E := fresh in destruct (nd_at ip m i) eqn:E
    | |- context [?f ?x] =>
        match type of (f x) with bool => is_var f; is_var x; let E := fresh in destruct (f x) eqn:E end
    end; cbn [negb andb orb] ].

(** Facts about the arguments at one element. *)
Ltac facts_tac :=
  unfold arg_exists in *;
  repeat match goal with H : _ /\ _ |- _ => destruct H end;
  repeat match goal with
    | H : mval ?m ?a ?i <> None |- _ =>
        let E := fresh "E" in destruct (mval m a i) eqn:E; [clear H|congruence]
    end.

Ltac plain_tac Hex :=
  first [apply local1_plain | apply local2_plain; [assumption|..]];
  [ intros i _; own_tac
  | let Hi := fresh "Hi" in let H := fresh "H" in
    intros i Hi; pose proof (Hex i Hi) as H; facts_tac; run_tac ].

Ltac loops_tac := repeat first
  [ apply own_all1_ifp; [solve [own_tac]|..] | apply own_all2_ifp; [solve [own_tac]|..]
  | apply own_all1_loop; intros i _; solve [own_tac]
  | apply own_all2_loop; [assumption|intros i _; solve [own_tac]] ].

Ltac decide_tac b :=
  match b with
  | context [nd_at ?ip ?m ?i] => destruct (nd_at ip m i)
  | context [?f ?x] =>
      match type of (f x) with bool => is_var f; is_var x; destruct (f x) end
  end; cbn [negb andb orb].

Ltac hoist_tac := repeat (
  first [ eapply local1_ifp; [solve [own_tac]|solve [tests_tac]|solve [loops_tac]|solve [loops_tac]|]
        | eapply local2_ifp; [solve [own_tac]|solve [tests_tac]|solve [loops_tac]|solve [loops_tac]|] ];
  repeat match goal with
    | |- local1 _ _ _ (if ?b then _ else _) _ _ => decide_tac b
    | |- local2 _ _ _ _ (if ?b then _ else _) _ _ => decide_tac b
    end; cbn [negb andb orb]).

Section Cells.
Context {V : Type}.
Implicit Types m : mem V.
Implicit Types op : outpol V.
Implicit Types ip : inpol V.

(** *** cover *)
Lemma run_cover_cell ip1 ip2 op a1 a2 rb m i i2 :
  marks_result op rb -> result_exists op rb m i ->
  arg_exists ip1 a1 m i -> arg_exists ip2 a2 m i2 ->
  exists ms, run (cover_cell ip1 ip2 op a1 a2 rb i i2) m = Some (tt, ms) /\
    holds op rb m ms i (cover_outcome (arg_at ip1 a1 m i) (arg_at ip2 a2 m i2)).
Proof.
  intros Hm Hr [R1 V1] [R2 V2]. unfold cover_cell, cover_outcome, arg_at.
  destruct (mval m a1 i) as [x1|] eqn:E1; [|congruence].
  destruct (mval m a2 i2) as [x2|] eqn:E2; [|congruence].
  run_tac.
Qed.

Lemma local_cover_2d_0d ip1 ip2 op a1 a2 rb rows cols m : 0 <= cols ->
  marks_result op rb -> scalar_apart ip2 a2 op rb m ->
  (forall i, 0 <= i < rows * cols -> arg_exists ip1 a1 m i /\ result_exists op rb m i) ->
  local2 op rb rows cols (cover_2d_0d ip1 ip2 op a1 a2 rb cols)
    (fun i => cover_outcome (arg_at ip1 a1 m i) (arg_at ip2 a2 m 0)) m.
Proof.
  intros Hc Hm (H2 & Ha & Hap) Hex. apply local2_plain; auto.
  - intros i _. unfold cover_cell. own_tac.
  - intros i Hi. destruct (Hex i Hi). apply run_cover_cell; auto.
Qed.

Lemma local_cover_2d_2d ip1 ip2 op a1 a2 rb rows cols m : 0 <= cols ->
  marks_result op rb ->
  (forall i, 0 <= i < rows * cols ->
     arg_exists ip1 a1 m i /\ arg_exists ip2 a2 m i /\ result_exists op rb m i) ->
  local2 op rb rows cols (cover_2d_2d ip1 ip2 op a1 a2 rb cols)
    (fun i => cover_outcome (arg_at ip1 a1 m i) (arg_at ip2 a2 m i)) m.
Proof.
  intros Hc Hm Hex. apply local2_plain; auto.
  - intros i _. unfold cover_cell. own_tac.
  - intros i Hi. destruct (Hex i Hi) as (H1 & H2 & H3). apply run_cover_cell; auto.
Qed.
(** *** if_then *)

Lemma local_if_then_0d_2d (truth : V -> bool) ip0 ip1 op c t rb rows cols m :
  0 <= cols -> marks_result op rb -> scalar_apart ip0 c op rb m -> 
  (forall i, 0 <= i < rows * cols -> arg_exists ip1 t m i /\ result_exists op rb m i) ->
  local2 op rb rows cols (if_then_0d_2d truth ip0 ip1 op c t rb cols)
    (fun i => if_then_outcome truth (arg_at ip0 c m 0) (arg_at ip1 t m i)) m.
Proof.
  intros Hc Hm S0 Hex.
  unfold scalar_apart, arg_exists in S0; decompose [and] S0; clear S0.
  unfold if_then_0d_2d, if_then_else_cell, scalar_branches_neither, scalar_branches_false,
    scalar_branches_true, scalar_branches_both, copy_cell.
  facts_tac. unfold if_then_outcome, if_then_else_outcome, arg_at, value_or_no_data.
  repeat match goal with E : mval _ _ _ = Some _ |- _ => rewrite E end.
  hoist_tac; plain_tac Hex.
Qed.

Lemma local_if_then_2d_0d (truth : V -> bool) ip0 ip1 op c t rb rows cols m :
  0 <= cols -> marks_result op rb -> scalar_apart ip1 t op rb m -> 
  (forall i, 0 <= i < rows * cols -> arg_exists ip0 c m i /\ result_exists op rb m i) ->
  local2 op rb rows cols (if_then_2d_0d truth ip0 ip1 op c t rb cols)
    (fun i => if_then_outcome truth (arg_at ip0 c m i) (arg_at ip1 t m 0)) m.
Proof.
  intros Hc Hm S1 Hex.
  unfold scalar_apart, arg_exists in S1; decompose [and] S1; clear S1.
  unfold if_then_2d_0d, if_then_else_cell, scalar_branches_neither, scalar_branches_false,
    scalar_branches_true, scalar_branches_both, copy_cell.
  facts_tac. unfold if_then_outcome, if_then_else_outcome, arg_at, value_or_no_data.
  repeat match goal with E : mval _ _ _ = Some _ |- _ => rewrite E end.
  hoist_tac; plain_tac Hex.
Qed.

Lemma local_if_then_2d_2d (truth : V -> bool) ip0 ip1 op c t rb rows cols m :
  0 <= cols -> marks_result op rb -> 
  (forall i, 0 <= i < rows * cols -> arg_exists ip0 c m i /\ arg_exists ip1 t m i /\ result_exists op rb m i) ->
  local2 op rb rows cols (if_then_2d_2d truth ip0 ip1 op c t rb cols)
    (fun i => if_then_outcome truth (arg_at ip0 c m i) (arg_at ip1 t m i)) m.
Proof.
  intros Hc Hm  Hex.
  
  unfold if_then_2d_2d, if_then_else_cell, scalar_branches_neither, scalar_branches_false,
    scalar_branches_true, scalar_branches_both, copy_cell.
  facts_tac. unfold if_then_outcome, if_then_else_outcome, arg_at, value_or_no_data.
  repeat match goal with E : mval _ _ _ = Some _ |- _ => rewrite E end.
  hoist_tac; plain_tac Hex.
Qed.

(** *** if_then_else *)

Lemma local_if_then_else_1d_0d_0d (truth : V -> bool) ip0 ip1 ip2 op c t f rb size m :
  marks_result op rb -> scalar_apart ip1 t op rb m -> scalar_apart ip2 f op rb m -> 
  (forall i, 0 <= i < size -> arg_exists ip0 c m i /\ result_exists op rb m i) ->
  local1 op rb size (if_then_else_1d_0d_0d truth ip0 ip1 ip2 op c t f rb)
    (fun i => if_then_else_outcome truth (arg_at ip0 c m i) (arg_at ip1 t m 0) (arg_at ip2 f m 0)) m.
Proof.
  intros Hm S1 S2 Hex.
  unfold scalar_apart, arg_exists in S1; decompose [and] S1; clear S1.
  unfold scalar_apart, arg_exists in S2; decompose [and] S2; clear S2.
  unfold if_then_else_1d_0d_0d, if_then_else_cell, scalar_branches_neither, scalar_branches_false,
    scalar_branches_true, scalar_branches_both, copy_cell.
  facts_tac. unfold if_then_outcome, if_then_else_outcome, arg_at, value_or_no_data.
  repeat match goal with E : mval _ _ _ = Some _ |- _ => rewrite E end.
  hoist_tac; plain_tac Hex.
Qed.

Lemma local_if_then_else_1d_1d_0d (truth : V -> bool) ip0 ip1 ip2 op c t f rb size m :
  marks_result op rb -> scalar_apart ip2 f op rb m -> 
  (forall i, 0 <= i < size -> arg_exists ip0 c m i /\ arg_exists ip1 t m i /\ result_exists op rb m i) ->
  local1 op rb size (if_then_else_1d_1d_0d truth ip0 ip1 ip2 op c t f rb)
    (fun i => if_then_else_outcome truth (arg_at ip0 c m i) (arg_at ip1 t m i) (arg_at ip2 f m 0)) m.
Proof.
  intros Hm S2 Hex.
  unfold scalar_apart, arg_exists in S2; decompose [and] S2; clear S2.
  unfold if_then_else_1d_1d_0d, if_then_else_cell, scalar_branches_neither, scalar_branches_false,
    scalar_branches_true, scalar_branches_both, copy_cell.
  facts_tac. unfold if_then_outcome, if_then_else_outcome, arg_at, value_or_no_data.
  repeat match goal with E : mval _ _ _ = Some _ |- _ => rewrite E end.
  hoist_tac; plain_tac Hex.
Qed.

Lemma local_if_then_else_1d_0d_1d (truth : V -> bool) ip0 ip1 ip2 op c t f rb size m :
  marks_result op rb -> scalar_apart ip1 t op rb m -> 
  (forall i, 0 <= i < size -> arg_exists ip0 c m i /\ arg_exists ip2 f m i /\ result_exists op rb m i) ->
  local1 op rb size (if_then_else_1d_0d_1d truth ip0 ip1 ip2 op c t f rb)
    (fun i => if_then_else_outcome truth (arg_at ip0 c m i) (arg_at ip1 t m 0) (arg_at ip2 f m i)) m.
Proof.
  intros Hm S1 Hex.
  unfold scalar_apart, arg_exists in S1; decompose [and] S1; clear S1.
  unfold if_then_else_1d_0d_1d, if_then_else_cell, scalar_branches_neither, scalar_branches_false,
    scalar_branches_true, scalar_branches_both, copy_cell.
  facts_tac. unfold if_then_outcome, if_then_else_outcome, arg_at, value_or_no_data.
  repeat match goal with E : mval _ _ _ = Some _ |- _ => rewrite E end.
  hoist_tac; plain_tac Hex.
Qed.

Lemma local_if_then_else_1d_1d_1d (truth : V -> bool) ip0 ip1 ip2 op c t f rb size m :
  marks_result op rb -> 
  (forall i, 0 <= i < size -> arg_exists ip0 c m i /\ arg_exists ip1 t m i /\ arg_exists ip2 f m i /\ result_exists op rb m i) ->
  local1 op rb size (if_then_else_1d_1d_1d truth ip0 ip1 ip2 op c t f rb)
    (fun i => if_then_else_outcome truth (arg_at ip0 c m i) (arg_at ip1 t m i) (arg_at ip2 f m i)) m.
Proof.
  intros Hm  Hex.
  
  unfold if_then_else_1d_1d_1d, if_then_else_cell, scalar_branches_neither, scalar_branches_false,
    scalar_branches_true, scalar_branches_both, copy_cell.
  facts_tac. unfold if_then_outcome, if_then_else_outcome, arg_at, value_or_no_data.
  repeat match goal with E : mval _ _ _ = Some _ |- _ => rewrite E end.
  hoist_tac; plain_tac Hex.
Qed.

Lemma local_if_then_else_0d_2d_2d (truth : V -> bool) ip0 ip1 ip2 op c t f rb rows cols m :
  0 <= cols -> marks_result op rb -> scalar_apart ip0 c op rb m -> 
  (forall i, 0 <= i < rows * cols -> arg_exists ip1 t m i /\ arg_exists ip2 f m i /\ result_exists op rb m i) ->
  local2 op rb rows cols (if_then_else_0d_2d_2d truth ip0 ip1 ip2 op c t f rb cols)
    (fun i => if_then_else_outcome truth (arg_at ip0 c m 0) (arg_at ip1 t m i) (arg_at ip2 f m i)) m.
Proof.
  intros Hc Hm S0 Hex.
  unfold scalar_apart, arg_exists in S0; decompose [and] S0; clear S0.
  unfold if_then_else_0d_2d_2d, if_then_else_cell, scalar_branches_neither, scalar_branches_false,
    scalar_branches_true, scalar_branches_both, copy_cell.
  facts_tac. unfold if_then_outcome, if_then_else_outcome, arg_at, value_or_no_data.
  repeat match goal with E : mval _ _ _ = Some _ |- _ => rewrite E end.
  hoist_tac; plain_tac Hex.
Qed.

Lemma local_if_then_else_0d_0d_2d (truth : V -> bool) ip0 ip1 ip2 op c t f rb rows cols m :
  0 <= cols -> marks_result op rb -> scalar_apart ip0 c op rb m -> scalar_apart ip1 t op rb m -> 
  (forall i, 0 <= i < rows * cols -> arg_exists ip2 f m i /\ result_exists op rb m i) ->
  local2 op rb rows cols (if_then_else_0d_0d_2d truth ip0 ip1 ip2 op c t f rb cols)
    (fun i => if_then_else_outcome truth (arg_at ip0 c m 0) (arg_at ip1 t m 0) (arg_at ip2 f m i)) m.
Proof.
  intros Hc Hm S0 S1 Hex.
  unfold scalar_apart, arg_exists in S0; decompose [and] S0; clear S0.
  unfold scalar_apart, arg_exists in S1; decompose [and] S1; clear S1.
  unfold if_then_else_0d_0d_2d, if_then_else_cell, scalar_branches_neither, scalar_branches_false,
    scalar_branches_true, scalar_branches_both, copy_cell.
  facts_tac. unfold if_then_outcome, if_then_else_outcome, arg_at, value_or_no_data.
  repeat match goal with E : mval _ _ _ = Some _ |- _ => rewrite E end.
  hoist_tac; plain_tac Hex.
Qed.

Lemma local_if_then_else_0d_2d_0d (truth : V -> bool) ip0 ip1 ip2 op c t f rb rows cols m :
  0 <= cols -> marks_result op rb -> scalar_apart ip0 c op rb m -> scalar_apart ip2 f op rb m -> 
  (forall i, 0 <= i < rows * cols -> arg_exists ip1 t m i /\ result_exists op rb m i) ->
  local2 op rb rows cols (if_then_else_0d_2d_0d truth ip0 ip1 ip2 op c t f rb cols)
    (fun i => if_then_else_outcome truth (arg_at ip0 c m 0) (arg_at ip1 t m i) (arg_at ip2 f m 0)) m.
Proof.
  intros Hc Hm S0 S2 Hex.
  unfold scalar_apart, arg_exists in S0; decompose [and] S0; clear S0.
  unfold scalar_apart, arg_exists in S2; decompose [and] S2; clear S2.
  unfold if_then_else_0d_2d_0d, if_then_else_cell, scalar_branches_neither, scalar_branches_false,
    scalar_branches_true, scalar_branches_both, copy_cell.
  facts_tac. unfold if_then_outcome, if_then_else_outcome, arg_at, value_or_no_data.
  repeat match goal with E : mval _ _ _ = Some _ |- _ => rewrite E end.
  hoist_tac; plain_tac Hex.
Qed.

Lemma local_if_then_else_2d_2d_2d (truth : V -> bool) ip0 ip1 ip2 op c t f rb rows cols m :
  0 <= cols -> marks_result op rb -> 
  (forall i, 0 <= i < rows * cols -> arg_exists ip0 c m i /\ arg_exists ip1 t m i /\ arg_exists ip2 f m i /\ result_exists op rb m i) ->
  local2 op rb rows cols (if_then_else_2d_2d_2d truth ip0 ip1 ip2 op c t f rb cols)
    (fun i => if_then_else_outcome truth (arg_at ip0 c m i) (arg_at ip1 t m i) (arg_at ip2 f m i)) m.
Proof.
  intros Hc Hm  Hex.
  
  unfold if_then_else_2d_2d_2d, if_then_else_cell, scalar_branches_neither, scalar_branches_false,
    scalar_branches_true, scalar_branches_both, copy_cell.
  facts_tac. unfold if_then_outcome, if_then_else_outcome, arg_at, value_or_no_data.
  repeat match goal with E : mval _ _ _ = Some _ |- _ => rewrite E end.
  hoist_tac; plain_tac Hex.
Qed.

Lemma local_if_then_else_2d_2d_0d (truth : V -> bool) ip0 ip1 ip2 op c t f rb rows cols m :
  0 <= cols -> marks_result op rb -> scalar_apart ip2 f op rb m -> 
  (forall i, 0 <= i < rows * cols -> arg_exists ip0 c m i /\ arg_exists ip1 t m i /\ result_exists op rb m i) ->
  local2 op rb rows cols (if_then_else_2d_2d_0d truth ip0 ip1 ip2 op c t f rb cols)
    (fun i => if_then_else_outcome truth (arg_at ip0 c m i) (arg_at ip1 t m i) (arg_at ip2 f m 0)) m.
Proof.
  intros Hc Hm S2 Hex.
  unfold scalar_apart, arg_exists in S2; decompose [and] S2; clear S2.
  unfold if_then_else_2d_2d_0d, if_then_else_cell, scalar_branches_neither, scalar_branches_false,
    scalar_branches_true, scalar_branches_both, copy_cell.
  facts_tac. unfold if_then_outcome, if_then_else_outcome, arg_at, value_or_no_data.
  repeat match goal with E : mval _ _ _ = Some _ |- _ => rewrite E end.
  hoist_tac; plain_tac Hex.
Qed.

Lemma local_if_then_else_2d_0d_2d (truth : V -> bool) ip0 ip1 ip2 op c t f rb rows cols m :
  0 <= cols -> marks_result op rb -> scalar_apart ip1 t op rb m -> 
  (forall i, 0 <= i < rows * cols -> arg_exists ip0 c m i /\ arg_exists ip2 f m i /\ result_exists op rb m i) ->
  local2 op rb rows cols (if_then_else_2d_0d_2d truth ip0 ip1 ip2 op c t f rb cols)
    (fun i => if_then_else_outcome truth (arg_at ip0 c m i) (arg_at ip1 t m 0) (arg_at ip2 f m i)) m.
Proof.
  intros Hc Hm S1 Hex.
  unfold scalar_apart, arg_exists in S1; decompose [and] S1; clear S1.
  unfold if_then_else_2d_0d_2d, if_then_else_cell, scalar_branches_neither, scalar_branches_false,
    scalar_branches_true, scalar_branches_both, copy_cell.
  facts_tac. unfold if_then_outcome, if_then_else_outcome, arg_at, value_or_no_data.
  repeat match goal with E : mval _ _ _ = Some _ |- _ => rewrite E end.
  hoist_tac; plain_tac Hex.
Qed.

Lemma local_if_then_else_2d_0d_0d (truth : V -> bool) ip0 ip1 ip2 op c t f rb rows cols m :
  0 <= cols -> marks_result op rb -> scalar_apart ip1 t op rb m -> scalar_apart ip2 f op rb m -> 
  (forall i, 0 <= i < rows * cols -> arg_exists ip0 c m i /\ result_exists op rb m i) ->
  local2 op rb rows cols (if_then_else_2d_0d_0d truth ip0 ip1 ip2 op c t f rb cols)
    (fun i => if_then_else_outcome truth (arg_at ip0 c m i) (arg_at ip1 t m 0) (arg_at ip2 f m 0)) m.
Proof.
  intros Hc Hm S1 S2 Hex.
  unfold scalar_apart, arg_exists in S1; decompose [and] S1; clear S1.
  unfold scalar_apart, arg_exists in S2; decompose [and] S2; clear S2.
  unfold if_then_else_2d_0d_0d, if_then_else_cell, scalar_branches_neither, scalar_branches_false,
    scalar_branches_true, scalar_branches_both, copy_cell.
  facts_tac. unfold if_then_outcome, if_then_else_outcome, arg_at, value_or_no_data.
  repeat match goal with E : mval _ _ _ = Some _ |- _ => rewrite E end.
  hoist_tac; plain_tac Hex.
Qed.

(** *** Scalars *)
Lemma run_if_then_0d truth ip0 ip1 op c t rb m :
  marks_result op rb -> result_exists op rb m 0 ->
  arg_exists ip0 c m 0 -> arg_exists ip1 t m 0 ->
  exists ms, run (if_then_0d_0d truth ip0 ip1 op c t rb) m = Some (tt, ms) /\
    holds op rb m ms 0 (if_then_outcome truth (arg_at ip0 c m 0) (arg_at ip1 t m 0)).
Proof.
  intros Hm Hr H0 H1. unfold if_then_0d_0d. facts_tac.
  unfold if_then_outcome, arg_at, value_or_no_data.
  repeat match goal with E : mval _ _ _ = Some _ |- _ => rewrite E end.
  run_tac.
Qed.

Lemma run_if_then_else_cell truth ip0 ip1 ip2 op c t f rb m i :
  marks_result op rb -> result_exists op rb m i ->
  arg_exists ip0 c m i -> arg_exists ip1 t m i -> arg_exists ip2 f m i ->
  exists ms, run (if_then_else_cell truth ip0 ip1 ip2 op c t f rb i) m = Some (tt, ms) /\
    holds op rb m ms i (if_then_else_outcome truth (arg_at ip0 c m i) (arg_at ip1 t m i)
      (arg_at ip2 f m i)).
Proof.
  intros Hm Hr H0 H1 H2. unfold if_then_else_cell. facts_tac.
  unfold if_then_else_outcome, arg_at, value_or_no_data.
  repeat match goal with E : mval _ _ _ = Some _ |- _ => rewrite E end.
  run_tac.
Qed.

(** *** clamp *)
Definition clamp_fun (lt : V -> V -> bool) (v l h : V) : V :=
  if lt v l then l else if lt h v then h else v.

Definition clamp_outcome (lt : V -> V -> bool) (a l h : option V) : outcome V :=
  match a, l, h with
  | Some v, Some l, Some h => Value (clamp_fun lt v l h)
  | _, _, _ => NoData
  end.

Lemma clamp_fun_clamped (lt : V -> V -> bool) v l h : (forall x, lt x x = false) ->
  lt h l = false -> clamped lt v l h (clamp_fun lt v l h).
Proof.
  intros Hi Ho. unfold clamped, clamp_fun.
  destruct (lt v l) eqn:E1.
  - rewrite Hi, Ho. repeat split; auto; discriminate.
  - destruct (lt h v) eqn:E2.
    + rewrite Hi, Ho. repeat split; auto; discriminate.
    + rewrite E1, E2. repeat split; auto; discriminate.
Qed.

(** A bound can be consulted at element [i]. *)
Definition bounds_ok (lt : V -> V -> bool) ip0 ip1 ip2 (a lo hi : buf) m i il ih : Prop :=
  arg_exists ip0 a m i /\
  (nd_at ip0 m i = false ->
   readable ip1 m il /\ readable ip2 m ih /\
   exists l h, arg_at ip1 lo m il = Some l /\ arg_at ip2 hi m ih = Some h /\ lt h l = false).

Lemma run_clamp_cell lt ip0 ip1 ip2 op a lo hi rb m i il ih :
  marks_result op rb -> result_exists op rb m i ->
  bounds_ok lt ip0 ip1 ip2 a lo hi m i il ih ->
  exists ms, run (clamp_cell lt ip0 ip1 ip2 op a lo hi rb i il ih) m = Some (tt, ms) /\
    holds op rb m ms i (clamp_outcome lt (arg_at ip0 a m i) (arg_at ip1 lo m il)
      (arg_at ip2 hi m ih)).
Proof.
  intros Hm Hr [Ha Hb]. unfold clamp_cell. facts_tac. unfold arg_at at 1.
  destruct (nd_at ip0 m i) eqn:E0.
  - erewrite run_ifp by tests_tac. rewrite E0. apply run_mark; auto.
  - erewrite run_ifp by tests_tac. rewrite E0.
    destruct (Hb eq_refl) as (R1 & R2 & l & h & El & Eh & Ho). clear Hb.
    rewrite El, Eh. unfold arg_at in El, Eh.
    destruct (nd_at ip1 m il) eqn:E1; [discriminate|].
    destruct (nd_at ip2 m ih) eqn:E2; [discriminate|].
    unfold assertp. erewrite run_ifp by tests_tac. rewrite E1; cbn [negb].
    erewrite run_ifp by tests_tac. rewrite E2; cbn [negb].
    unfold clamp_value. erewrite run_rdv by eassumption. erewrite run_rdv by eassumption.
    erewrite run_rdv by eassumption. rewrite Ho.
    rewrite E. unfold clamp_outcome, clamp_fun.
    destruct Hr as [Hv _]. cbn. destruct (mval m rb i) as [old|] eqn:Eo; [|congruence].
    eexists; split; [reflexivity|]. split; simpl.
    + rewrite same_refl, Eo; auto.
    + intros x _. destruct (mmsk m x i); auto.
Qed.

Lemma own_clamp_cell lt ip0 ip1 ip2 op a lo hi rb i il ih :
  marks_result op rb ->
  (il = i \/ lo <> rb /\ policy_apart ip1 op rb) ->
  (ih = i \/ hi <> rb /\ policy_apart ip2 op rb) ->
  own (Z.eqb i) rb (mask_buffer op) (clamp_cell lt ip0 ip1 ip2 op a lo hi rb i il ih).
Proof.
  intros Hm Hl Hh. unfold clamp_cell, assertp, clamp_value.
  assert (own (Z.eqb i) rb (mask_buffer op) (is_no_data ip1 il)).
  { destruct Hl as [->|[_ H]]; own_tac. }
  assert (own (Z.eqb i) rb (mask_buffer op) (is_no_data ip2 ih)).
  { destruct Hh as [->|[_ H']]; own_tac. }
  own_tac.
  apply own_bind; [apply own_rdv|intros v].
  apply own_bind; [destruct Hl as [->|[H' _]]; [apply own_rdv|apply own_rdv_other; auto]|intros l].
  apply own_bind; [destruct Hh as [->|[H' _]]; [apply own_rdv|apply own_rdv_other; auto]|intros h].
  apply own_if; [exact I|apply own_wrv].
Qed.

Lemma local_clamp_1d lt ip0 ip1 ip2 op a lo hi rb size m (il ih : Z -> Z) :
  marks_result op rb ->
  (forall i, il i = i \/ lo <> rb /\ policy_apart ip1 op rb) ->
  (forall i, ih i = i \/ hi <> rb /\ policy_apart ip2 op rb) ->
  (forall i, 0 <= i < size ->
     bounds_ok lt ip0 ip1 ip2 a lo hi m i (il i) (ih i) /\ result_exists op rb m i) ->
  local1 op rb size
    (fun r => loop1 r (fun i => clamp_cell lt ip0 ip1 ip2 op a lo hi rb i (il i) (ih i)))
    (fun i => clamp_outcome lt (arg_at ip0 a m i) (arg_at ip1 lo m (il i))
      (arg_at ip2 hi m (ih i))) m.
Proof.
  intros Hm Hl Hh Hex. apply local1_plain.
  - intros i _. apply own_clamp_cell; auto.
  - intros i Hi. destruct (Hex i Hi). apply run_clamp_cell; auto.
Qed.

Lemma local_clamp_2d lt ip0 ip1 ip2 op a lo hi rb rows cols m (il ih : Z -> Z) : 0 <= cols ->
  marks_result op rb ->
  (forall i, il i = i \/ lo <> rb /\ policy_apart ip1 op rb) ->
  (forall i, ih i = i \/ hi <> rb /\ policy_apart ip2 op rb) ->
  (forall i, 0 <= i < rows * cols ->
     bounds_ok lt ip0 ip1 ip2 a lo hi m i (il i) (ih i) /\ result_exists op rb m i) ->
  local2 op rb rows cols
    (fun blk => loop2 cols blk
       (fun i => clamp_cell lt ip0 ip1 ip2 op a lo hi rb i (il i) (ih i)))
    (fun i => clamp_outcome lt (arg_at ip0 a m i) (arg_at ip1 lo m (il i))
      (arg_at ip2 hi m (ih i))) m.
Proof.
  intros Hc Hm Hl Hh Hex. apply local2_plain; auto.
  - intros i _. apply own_clamp_cell; auto.
  - intros i Hi. destruct (Hex i Hi). apply run_clamp_cell; auto.
Qed.

(** *** Merging of no-data *)
Lemma run_mark_if op rb (t : prog V bool) m i b : marks_result op rb ->
  result_exists op rb m i -> tests t m b ->
  exists ms, run (mark_if op t i) m = Some (tt, ms) /\
    holds op rb m ms i (marked_if b (mval m rb i)).
Proof.
  intros Hm Hr Ht. unfold mark_if. rewrite (run_ifp _ _ _ _ b) by auto.
  unfold marked_if. destruct b; [apply run_mark; auto|].
  destruct Hr as [Hv _]. destruct (mval m rb i) as [x|] eqn:E; [|congruence].
  apply run_skip; auto.
Qed.

Lemma own_mark_if op rb (t : prog V bool) i : marks_result op rb ->
  own (Z.eqb i) rb (mask_buffer op) t -> own (Z.eqb i) rb (mask_buffer op) (mark_if op t i).
Proof. intros Hm Ht. unfold mark_if. apply own_ifp; [assumption|own_tac|exact I]. Qed.

Lemma local_mark_if op rb (t : Z -> prog V bool) (b : Z -> bool) rows cols m : 0 <= cols ->
  marks_result op rb ->
  (forall i, own (Z.eqb i) rb (mask_buffer op) (t i)) ->
  (forall i, 0 <= i < rows * cols -> result_exists op rb m i /\ tests (t i) m (b i)) ->
  local2 op rb rows cols (fun blk => loop2 cols blk (fun i => mark_if op (t i) i))
    (fun i => marked_if (b i) (mval m rb i)) m.
Proof.
  intros Hc Hm Ho Hex. apply local2_plain; auto.
  - intros i _. apply own_mark_if; auto.
  - intros i Hi. destruct (Hex i Hi). apply run_mark_if; auto.
Qed.
End Cells.
