(** * Proofs for threading: what is not threaded *)

From Coq Require Import String List Bool Arith Lia Permutation.
From Verif Require Import AstModel SymbolModel SymbolProofs ThreadModel ThreadSpec ThreadProofs ThreadRunProofs ThreadAcceptProofs.
Import ListNotations.

Lemma any_tabs t : tabs (fun _ => True) t.
Proof. easy. Qed.

Lemma others_stay x s s' : visit_stmt Others x s = Some s' -> stay s s'.
Proof.
  intros E. destruct (visit_stmt_keeps x (fun _ => True) (fun _ => True) Others s s') as (_ & I & _ & _ & F); auto.
  - apply any_tabs.
  - split; auto.
Qed.

Lemma definitions_inside x s s' : visit_stmt Definitions x s = Some s' -> inside s' = inside s.
Proof.
  intros E. destruct (visit_stmt_keeps x (fun _ => True) (fun _ => True) Definitions s s') as (_ & I & _); auto.
  apply any_tabs.
Qed.

Lemma expr_stay e s s' : visit_expr e s = Some s' -> stay s s'.
Proof.
  intros E. apply (visit_expr_fine (fun _ => True) (fun _ => True)) in E; [apply E|apply any_tabs|easy].
Qed.

Lemma scope_stay b s s' : visit_scope visit_stmt b s = Some s' -> stay s s' /\ last_vertex s' = Some (block_sentinel b).
Proof.
  intros E. destruct (last_vertex s) as [v|] eqn:L.
  - destruct (visit_scope_kept (fun _ => True) (fun _ => True) b s s' v) as (F & Q); auto.
    + apply Forall_forall. intros. apply visit_stmt_keeps.
    + apply any_tabs.
    + split; [apply F|easy].
  - destruct b. simpl in E. now rewrite L in E.
Qed.

(** ** What a successful visit of a scope has visited *)

Lemma visits_visited l : forall s s', visits (visit_stmt Definitions) l s = Some s' -> forall x, In x l ->
  exists s1 s2, inside s1 = inside s /\ visit_stmt Definitions x s1 = Some s2.
Proof.
  induction l as [|y l IH]; intros s s' E x I; [easy|]. rewrite visits_cons in E.
  destruct (visit_stmt Definitions y s) as [s1|] eqn:E1; [|discriminate]. destruct I as [<-|I]; [eauto|].
  destruct (IH _ _ E x I) as (s2 & s3 & Q & H). exists s2, s3. split; [|easy]. rewrite Q. now apply definitions_inside in E1.
Qed.

Lemma visits_inside l : forall s s', visits (visit_stmt Definitions) l s = Some s' -> inside s' = inside s.
Proof.
  induction l as [|y l IH]; intros s s' E; [now injection E as <-|]. rewrite visits_cons in E.
  destruct (visit_stmt Definitions y s) as [s1|] eqn:E1; [|discriminate]. rewrite (IH _ _ E).
  now apply definitions_inside in E1.
Qed.

Lemma statements_app k a : forall b s, visit_statements visit_stmt k (a ++ b) s =
  then_ (visit_statements visit_stmt k a s) (visit_statements visit_stmt k b).
Proof.
  induction a as [|x a IH]; intros b s; [easy|]. change ((x :: a) ++ b) with (x :: (a ++ b)).
  rewrite !visit_statements_cons. destruct (visit_stmt Others x s) as [s1|]; [|easy].
  destruct (last_vertex s1); [|easy]. destruct (successors (graph s1) n) as [|w r]; [apply IH|].
  destruct (w =? k); [apply IH|easy].
Qed.

Lemma statements_inside k l : forall s s', visit_statements visit_stmt k l s = Some s' -> inside s' = inside s.
Proof.
  induction l as [|x l IH]; intros s s' E; [now injection E as <-|]. rewrite visit_statements_cons in E.
  destruct (visit_stmt Others x s) as [s1|] eqn:E1; [|discriminate]. apply others_stay in E1 as (_ & I1).
  destruct (last_vertex s1); [|discriminate]. destruct (successors (graph s1) n) as [|w r].
  - rewrite (IH _ _ E). easy.
  - destruct (w =? k); [|discriminate]. now rewrite (IH _ _ E).
Qed.

Lemma scope_visited i k l s s' : visit_scope visit_stmt (Block i k l) s = Some s' ->
  (forall x, In x l -> exists s1 s2, inside s1 = inside s /\ visit_stmt Definitions x s1 = Some s2) /\
  (forall a c e, l = a ++ c ++ e -> exists s1 s2, inside s1 = inside s /\ visit_statements visit_stmt k c s1 = Some s2).
Proof.
  intros E. unfold visit_scope in E. destruct (last_vertex s) as [v|]; [|discriminate]. unthen. split.
  - intros x I. destruct (visits_visited _ _ _ E0 x I) as (a & b & Q & H). exists a, b. now rewrite Q.
  - intros a c e EL. rewrite EL, statements_app in E1. apply then_some in E1 as (sa & EA & E1).
    rewrite statements_app in E1. apply then_some in E1 as (sb & EB & _). exists sa, sb. split; [|easy].
    rewrite (statements_inside _ _ _ _ EA). simpl. now rewrite (visits_inside _ _ _ E0).
Qed.

Lemma existsb_none {A} (f : A -> bool) l : (forall x, In x l -> f x = false) -> existsb f l = false.
Proof.
  induction l as [|x l IH]; intros H; [easy|]. simpl. rewrite H by now left. apply IH. intros y I. apply H. now right.
Qed.

Lemma after_return_some l : after_return l = true -> exists a i e j n g b c,
  l = a ++ [Return i e; Definition_ j n g b] ++ c.
Proof.
  induction l as [|x l IH]; [discriminate|]. intros E.
  destruct (after_return l) eqn:A.
  - destruct (IH eq_refl) as (a & i & e & j & n & g & b & c & ->). exists (x :: a), i, e, j, n, g, b, c. easy.
  - destruct x as [| |i e| | |]; simpl in E; try congruence. destruct l as [|[] l]; try congruence.
    exists [], i, e, id, name, args, scope, l. easy.
Qed.

Definition sound (x : tstmt) : Prop := forall s s',
  visit_stmt (if is_definition x then Definitions else Others) x s = Some s' ->
  NoDup (stmt_vertices x) -> (forall K r, inside s = K :: r -> ~ In K (stmt_vertices x)) ->
  loops x = false /\ late x = false /\ (is_return x = false -> forall d : bool, stray d x = false).

Lemma NoDup_flat_map {A B} (f : A -> list B) l x : NoDup (flat_map f l) -> In x l -> NoDup (f x).
Proof.
  intros N I. apply in_split in I as (a & b & ->). rewrite flat_map_app in N. apply NoDup_right in N. simpl in N.
  now apply NoDup_left in N.
Qed.

Lemma scope_sound i k l (d : bool) s s' : Forall sound l -> visit_scope visit_stmt (Block i k l) s = Some s' ->
  NoDup (block_vertices (Block i k l)) ->
  (if d then exists r, inside s = k :: r
   else forall K r, inside s = K :: r -> ~ In K (block_vertices (Block i k l))) ->
  clean_list d l /\ after_return l = false.
Proof.
  intros H E N HI. apply scope_visited in E as (ED & EO). rewrite Forall_forall in H.
  assert (NL : NoDup (flat_map stmt_vertices l)).
  { unfold block_vertices, block_vertices_ in N. simpl in N. apply NoDup_cons_iff in N as (_ & N'). now apply NoDup_left in N'. }
  assert (NK : ~ In k (flat_map stmt_vertices l)).
  { unfold block_vertices, block_vertices_ in N. simpl in N. apply NoDup_cons_iff in N as (_ & N'). intros J.
    eapply (NoDup_disjoint _ [k]); [exact N'|exact J|now left]. }
  assert (HI' : forall K r, inside s = K :: r -> ~ In K (flat_map stmt_vertices l)).
  { intros K r Q. destruct d.
    - destruct HI as (r' & HI). rewrite HI in Q. injection Q as <- _. exact NK.
    - intros J. apply (HI K r Q). now apply (block_inner (Block i k l)). }
  assert (ES : forall x, In x l -> loops x = false /\ late x = false /\ (is_return x = false -> forall d : bool, stray d x = false)).
  { intros x I. assert (V : exists s1 s2, inside s1 = inside s /\
      visit_stmt (if is_definition x then Definitions else Others) x s1 = Some s2).
    { destruct (is_definition x); [now apply ED|]. apply in_split in I as (a & b & EL).
      destruct (EO a [x] b EL) as (s1 & s2 & Q & V). rewrite visit_statements_cons in V.
      destruct (visit_stmt Others x s1) as [s3|] eqn:EX; [|discriminate]. eauto. }
    destruct V as (s1 & s2 & Q & V). apply (H x I s1 s2 V).
    - eapply NoDup_flat_map; eauto.
    - rewrite Q. intros K r QK J. apply (HI' K r QK). apply in_flat_map. eauto. }
  split; [split; [|split]|].
  - apply existsb_none. intros x I. now apply ES.
  - apply existsb_none. intros x I. destruct (is_return x) eqn:IR; [|now apply ES].
    destruct x as [| |j e| | |]; try discriminate IR. simpl. destruct d; [easy|]. exfalso.
    apply in_split in I as (a & b & EL). destruct (EO a [Return j e] b EL) as (s1 & s2 & Q & V).
    rewrite visit_statements_cons in V. destruct (visit_stmt Others (Return j e) s1) as [s3|] eqn:EX; [|discriminate].
    apply return_last in EX as (LX & K & r & IX & SX). rewrite LX, SX in V.
    destruct (Nat.eqb_spec K k) as [->|]; [|discriminate]. rewrite Q in IX. apply (HI k r IX).
    right. apply in_app_iff. right. now left.
  - apply existsb_none. intros x I. now apply ES.
  - destruct (after_return l) eqn:AR; [|easy]. exfalso.
    apply after_return_some in AR as (a & j & e & q & n & g & b & c & EL).
    destruct (EO _ _ _ EL) as (s1 & s2 & Q & V). rewrite visit_statements_cons in V.
    destruct (visit_stmt Others (Return j e) s1) as [s3|] eqn:EX; [|discriminate].
    apply return_last in EX as (LX & K & r & IX & SX). rewrite LX, SX in V.
    destruct (K =? k); [|discriminate]. discriminate V.
Qed.

Lemma all_sound x : sound x.
Proof.
  induction x using tstmt_induction; intros s s' E ND HI; simpl is_definition in E; cbv iota in E.
  - easy.
  - easy.
  - easy.
  - rewrite choice_vertices in ND, HI. simpl in E. unthen. apply at_vertex_some in E3 as (-> & _).
    apply NoDup_right in ND. apply NoDup_cons_iff in ND as (_ & ND'). pose proof (NoDup_left _ _ ND') as NT.
    apply NoDup_right in ND'. pose proof (NoDup_left _ _ ND') as NF.
    assert (I1 : inside s1 = inside s).
    { rewrite <- (proj2 (expr_stay _ _ _ E0)). exact (proj2 (stay_link _ _ _ E1)). }
    assert (CT : clean_list false (block_statements t) /\ after_return (block_statements t) = false).
    { destruct t as [ti tk tl]. apply (scope_sound ti tk tl false) in E2; auto. simpl. rewrite I1. intros K r Q J.
      apply (HI K r Q). apply in_app_iff. right. right. apply in_app_iff. now left. }
    assert (CF : clean_list false (block_statements f) /\ after_return (block_statements f) = false).
    { destruct f as [fi fk [|x fl]]; [easy|]. apply then_some in E5 as (s6 & E6 & E5).
      apply (scope_sound fi fk (x :: fl) false) in E6; auto. simpl.
      assert (I4 : inside s4 = inside s).
      { rewrite <- I1. apply stay_link in E4 as (_ & ->). apply scope_stay in E2 as ((_ & ->) & _). easy. }
      rewrite I4. intros K r Q J.
      apply (HI K r Q). apply in_app_iff. right. right. apply in_app_iff. right. apply in_app_iff. now left. }
    destruct CT as ((C1 & C2 & C3) & C4), CF as ((D1 & D2 & D3) & D4). simpl. rewrite C1, C3, C4, D1, D3, D4.
    split; [easy|]. split; [easy|]. intros _ d. now rewrite C2, D2.
  - discriminate E.
  - rewrite definition_vertices in ND, HI. simpl in E. unthen.
    apply NoDup_cons_iff in ND as (_ & ND'). apply NoDup_right in ND'.
    destruct b as [bi bk bl]. apply (scope_sound bi bk bl true) in E1; auto.
    + destruct E1 as ((C1 & C2 & C3) & C4). simpl. now rewrite C1, C2, C3, C4.
    + apply (visits_thread_fine (fun _ => True) (fun _ => True)) in E0; [|easy]. destruct E0 as (_ & _ & ->).
      simpl. eauto.
Qed.

(** ** Every function is called at most once *)

Definition used (s : thread) (q : nat) : Prop := successors (graph s) q <> [] \/ last_vertex s = Some q.
Definition settled (s : thread) : Prop := forall l, last_vertex s = Some l -> successors (graph s) l = [].

Lemma link_uses v s s' q : link_last v s = Some s' -> used s q -> successors (graph s') q <> [].
Proof.
  intros E U. apply link_last_some in E as (l & L & S & ->). simpl. rewrite successors_app, successors_one.
  destruct U as [U|U].
  - now destruct (successors (graph s) q).
  - rewrite L in U. injection U as ->. rewrite Nat.eqb_refl. now destruct (successors (graph s) q).
Qed.

Lemma link_settled v s s' : link_last v s = Some s' -> settled s.
Proof. intros E l L. apply link_last_some in E as (l' & L' & S & _). rewrite L in L'. now injection L' as <-. Qed.

Lemma thread_uses v s s' q : thread_to v s = Some s' -> used s q -> successors (graph s') q <> [].
Proof.
  unfold thread_to. destruct (last_vertex s) eqn:L.
  - destruct (link_last v s) as [s1|] eqn:E; [|discriminate]. intros [= <-] U. now apply (link_uses _ _ _ _ E).
  - intros [= <-] [U|U]; [easy|congruence].
Qed.

Lemma thread_settled v s s' : thread_to v s = Some s' -> settled s.
Proof.
  unfold thread_to. destruct (last_vertex s) eqn:L; [|intros _ l Q; congruence].
  destruct (link_last v s) as [s1|] eqn:E; [|discriminate]. intros _. now apply link_settled in E.
Qed.

Lemma grown X W s s' q : reach X W s s' -> successors (graph s) q <> [] -> successors (graph s') q <> [].
Proof.
  intros [(d & E & _) _ _] N. rewrite E, successors_app. now destruct (successors (graph s) q).
Qed.

Definition expr_once (e : texpr) : Prop := forall s s' env, rel (functions s) env -> visit_expr e s = Some s' ->
  settled s /\ (forall q, used s q -> successors (graph s') q <> []) /\
  (forall q, In q (expr_calls env e) -> used s' q) /\
  (settled s' -> NoDup (expr_calls env e) /\ forall q, In q (expr_calls env e) -> ~ used s q).

Definition exprs_once (l : list texpr) : Prop := forall s s' env, rel (functions s) env -> visits visit_expr l s = Some s' ->
  (forall q, used s q -> used s' q) /\ (forall q, In q (flat_map (expr_calls env) l) -> used s' q) /\
  (settled s' -> settled s /\ NoDup (flat_map (expr_calls env) l) /\
     forall q, In q (flat_map (expr_calls env) l) -> ~ used s q).

Lemma exprs_once_all l : Forall expr_once l -> exprs_once l.
Proof.
  induction 1 as [|e l HE HL IH]; intros s s' env R E.
  - injection E as <-. split; [easy|]. split; [easy|]. intros Q. split; [easy|]. split; [constructor|easy].
  - rewrite visits_cons in E. destruct (visit_expr e s) as [s1|] eqn:E1; [|discriminate].
    assert (R1 : rel (functions s1) env) by (rewrite (proj1 (expr_stay _ _ _ E1)); easy).
    destruct (HE s s1 env R E1) as (T1 & U1 & C1 & N1). destruct (IH s1 s' env R1 E) as (U2 & C2 & N2).
    simpl flat_map. split; [|split].
    + intros q U. apply U2. left. now apply U1.
    + intros q I. apply in_app_iff in I as [I|I]; auto.
    + intros Q. destruct (N2 Q) as (T2 & ND2 & NU2). destruct (N1 T2) as (ND1 & NU1). split; [easy|]. split.
      * apply NoDup_join; auto. intros q I J. exact (NU2 q J (C1 q I)).
      * intros q I. apply in_app_iff in I as [I|I]; [auto|]. intros U. apply (NU2 q I). left. now apply U1.
Qed.

Lemma exprs_then_once l i s s' env : exprs_once l -> rel (functions s) env ->
  then_ (visits visit_expr l s) (thread_to i) = Some s' ->
  settled s /\ (forall q, used s q -> successors (graph s') q <> []) /\
  (forall q, In q (flat_map (expr_calls env) l) -> successors (graph s') q <> []) /\
  NoDup (flat_map (expr_calls env) l) /\ forall q, In q (flat_map (expr_calls env) l) -> ~ used s q.
Proof.
  intros H R E. unthen. destruct (H s s0 env R E0) as (U & C & N).
  destruct (N (thread_settled _ _ _ E)) as (T & ND & NU). split; [easy|].
  split; [intros q Q; eapply thread_uses; eauto|]. split; [|easy]. intros q Q. eapply thread_uses; eauto.
Qed.

Lemma expr_once_all e : expr_once e.
Proof.
  induction e using texpr_induction; intros s s' env R E.
  - simpl in *. split; [eapply thread_settled; eauto|]. split; [intros q U; eapply thread_uses; eauto|].
    split; [easy|]. intros _. split; [constructor|easy].
  - apply exprs_once_all in H. simpl in E. unthen.
    assert (E2 : then_ (visits visit_expr l s) (thread_to i) = Some s1) by now rewrite E0.
    destruct (exprs_then_once l i s s1 env H R E2) as (T & U & C & ND & NU).
    assert (F1 : functions s1 = functions s).
    { rewrite (proj1 (stay_thread _ _ _ E1)).
      apply (exprs_reach _ _ _ env) in E0; [|easy]. apply E0. }
    simpl expr_calls. rewrite F1, (R n) in E. destruct (lookup env n) as [[f outer]|]; simpl option_map in E.
    + cbv zeta beta iota in E. simpl fst in E. unthen. injection E as <-. set (k := block_sentinel (fn_block f)) in *.
      split; [easy|]. split.
      { intros q Q. simpl. eapply thread_uses; [eassumption|]. left. now apply U. }
      split.
      { intros q I. apply in_app_iff in I as [I|[<-|[]]]; [|now right]. left. simpl.
        eapply thread_uses; [eassumption|]. left. now apply C. }
      intros Q. specialize (Q k eq_refl). simpl in Q.
      assert (kU : ~ used s1 k) by (intros X; eapply thread_uses in X; [|eassumption]; contradiction).
      split.
      * apply NoDup_join; auto; [repeat constructor; easy|]. intros q I [<-|[]]. apply kU. left. now apply C.
      * intros q I. apply in_app_iff in I as [I|[<-|[]]]; [auto|]. intros X. apply kU. left. now apply U.
    + injection E as <-. rewrite app_nil_r. split; [easy|]. split; [easy|]. split; [intros q I; left; auto|]. easy.
  - apply exprs_once_all in H. simpl in E.
    destruct (exprs_then_once l i s s' env H R E) as (T & U & C & ND & NU). split; [easy|]. split; [easy|].
    split; [intros q I; left; auto|]. easy.
  - assert (E2 : then_ (visits visit_expr [e1; e2] s) (thread_to i) = Some s').
    { simpl in *. destruct (visit_expr e1 s) as [sa|]; [|easy]. simpl in *. now destruct (visit_expr e2 sa). }
    assert (H : exprs_once [e1; e2]) by (apply exprs_once_all; auto).
    destruct (exprs_then_once _ i s s' env H R E2) as (T & U & C & ND & NU).
    simpl in C, ND, NU |- *. rewrite app_nil_r in *. split; [easy|]. split; [easy|].
    split; [intros q I; left; auto|]. easy.
  - assert (E2 : then_ (visits visit_expr [e] s) (thread_to i) = Some s').
    { simpl in *. now destruct (visit_expr e s) as [sa|]. }
    assert (H : exprs_once [e]) by (apply exprs_once_all; auto).
    destruct (exprs_then_once _ i s s' env H R E2) as (T & U & C & ND & NU).
    simpl in C, ND, NU |- *. rewrite app_nil_r in *. split; [easy|]. split; [easy|].
    split; [intros q I; left; auto|]. easy.
Qed.

Definition ocalls (env : list function) (x : tstmt) : list nat :=
  match x with Definition_ _ _ _ _ => [] | _ => stmt_calls env x end.

Definition stmt_once (x : tstmt) : Prop := forall s s' env, fresh s env (other_part x) -> rel (functions s) env ->
  visit_stmt Others x s = Some s' ->
  (forall q, used s q -> used s' q) /\ (forall q, In q (ocalls env x) -> used s' q) /\
  (settled s' \/ is_return x = true -> NoDup (ocalls env x) /\ forall q, In q (ocalls env x) -> ~ used s q).

Definition def_once (x : tstmt) : Prop :=
  match x with
  | Definition_ _ _ _ _ => forall s s' env, fresh s env (stmt_vertices x) -> rel (functions s) env ->
      visit_stmt Definitions x s = Some s' ->
      NoDup (stmt_calls env x) /\
      forall q, In q (stmt_calls env x) -> successors (graph s) q = [] /\ successors (graph s') q <> []
  | _ => True
  end.

Lemma definition_rel i n a b s s' env : visit_stmt Definitions (Definition_ i n a b) s = Some s' ->
  rel (functions s) env -> rel (functions s') ({| fn_name := n; fn_id := i; fn_args := a; fn_block := b |} :: env).
Proof.
  intros E R. simpl in E. unthen. apply at_vertex_some in E2 as (-> & L2).
  destruct (add_value (functions s1) n (i, block_sentinel b)) as [t|] eqn:EA; [|discriminate].
  destruct (match last_vertex s with Some v => v =? block_sentinel b | None => false end); [discriminate|].
  destruct (has_successor (graph s1) (block_sentinel b)); [discriminate|]. injection E as <-. simpl functions.
  eapply rel_add; [|exact EA]. apply scope_stay in E1 as ((-> & _) & _).
  apply (visits_thread_fine (fun _ => True) (fun _ => True)) in E0 as (_ & -> & _); easy.
Qed.

Lemma definition_reach i n a b s s' env : visit_stmt Definitions (Definition_ i n a b) s = Some s' ->
  rel (functions s) env ->
  reach (fun v => In v (stmt_vertices (Definition_ i n a b))) (own (stmt_vertices (Definition_ i n a b)) env) s s'.
Proof.
  intros E R. assert (KX : kept Definitions (fun v => In v (stmt_vertices (Definition_ i n a b)))
    (own (stmt_vertices (Definition_ i n a b)) env) s s').
  { apply visit_stmt_keeps with (x := Definition_ i n a b); auto; [now left|now apply rel_own|discriminate]. }
  apply KX.
Qed.

Lemma no_calls (P : nat -> Prop) : NoDup (@nil nat) /\ forall q, In q [] -> P q.
Proof. split; [constructor|easy]. Qed.

Lemma definitions_once l : Forall def_once l -> forall s s' env, fresh s env (flat_map definition_part l) ->
  rel (functions s) env -> visits (visit_stmt Definitions) l s = Some s' ->
  rel (functions s') (known l env) /\
  NoDup (definition_calls stmt_calls env l) /\
  forall q, In q (definition_calls stmt_calls env l) -> successors (graph s) q = [] /\ successors (graph s') q <> [].
Proof.
  induction 1 as [|x l HX HL IH]; intros s s' env F R E.
  - injection E as <-. split; [easy|]. apply no_calls.
  - rewrite visits_cons in E. destruct (visit_stmt Definitions x s) as [s1|] eqn:E1; [|discriminate].
    destruct x as [| | | | |i n a b]; try (simpl in E1; injection E1 as <-; exact (IH s s' env F R E)); [discriminate E1|].
    rewrite parts_cons in F. simpl known.
    pose proof (definition_rel _ _ _ _ _ _ _ E1 R) as R1. pose proof (definition_reach _ _ _ _ _ _ _ E1 R) as RX.
    destruct (HX s s1 env (fresh_app_l _ _ _ _ F) R E1) as (N1 & C1).
    destruct (IH s1 s' ({| fn_name := n; fn_id := i; fn_args := a; fn_block := b |} :: env)) as (R2 & N2 & C2); auto.
    { pose proof (fresh_after _ _ _ _ _ _ F RX) as (NF & U1). split; [easy|].
      intros v I. destruct (U1 v I) as (U2 & U3). split; [|easy].
      rewrite env_cons, in_app_iff. intros [J|J]; [|easy].
      destruct F as (ND & _). exact (NoDup_disjoint _ _ v ND J I). }
    split; [easy|]. set (env' := _ :: env) in *.
    change (definition_calls stmt_calls env (Definition_ i n a b :: l)) with
      (stmt_calls env (Definition_ i n a b) ++ definition_calls stmt_calls env' l). split.
    + apply NoDup_join; auto. intros q I J. destruct (C1 q I) as (_ & Q1), (C2 q J) as (Q2 & _). congruence.
    + intros q I. apply in_app_iff in I as [I|I].
      * destruct (C1 q I) as (Q1 & Q2). split; [easy|].
        assert (KD : kept Definitions (fun _ => True) (fun _ => True) s1 s').
        { apply (visit_definitions_kept _ _ l); auto; [|apply any_tabs]. apply Forall_forall. intros. apply visit_stmt_keeps. }
        eapply grown; [apply KD|easy].
      * destruct (C2 q I) as (Q1 & Q2). split; [|easy].
        destruct (successors (graph s) q) eqn:S; [easy|]. exfalso.
        apply (grown _ _ _ _ q RX); [now rewrite S|easy].
Qed.

(** The statements of a scope with sentinel [k]. *)
Lemma statements_once k l : Forall stmt_once l -> forall s s' env,
  visit_statements visit_stmt k l s = Some s' -> rel (functions s) env ->
  fresh s env (flat_map other_part l) -> (forall z, last_vertex s = Some z -> ~ In (z, k) (graph s)) ->
  ~ In k (flat_map other_part l) -> ~ In k (env_vertices env) -> last_vertex s <> Some k ->
  (forall a, In (a, k) (graph s) -> ~ In a (env_vertices env)) ->
  (forall q, used s q -> used s' q) /\ (forall q, In q (other_calls stmt_calls env l) -> used s' q) /\
  NoDup (other_calls stmt_calls env l) /\ forall q, In q (other_calls stmt_calls env l) -> ~ used s q.
Proof.
  induction 1 as [|x l HX HL IH]; intros s s' env E R F ST kO kE kL GK.
  - injection E as <-. split; [easy|]. split; [easy|]. apply no_calls.
  - rewrite visit_statements_cons in E. destruct (visit_stmt Others x s) as [s1|] eqn:E1; [|discriminate].
    rewrite other_calls_cons. fold (ocalls env x). simpl flat_map in *.
    destruct (HX s s1 env (fresh_app_l _ _ _ _ F) R E1) as (U1 & C1 & N1).
    destruct (last_vertex s1) as [z|] eqn:LZ; [|discriminate].
    pose proof (others_stay _ _ _ E1) as (F1 & I1).
    assert (KO : ~ In k (other_part x)) by (intros J; apply kO, in_app_iff; now left).
    assert (KL : ~ In k (flat_map other_part l)) by (intros J; apply kO, in_app_iff; now right).
    assert (AK : ~ allowed (own (other_part x) env) s k) by (intros [[J|J]|J]; [easy|easy|congruence]).
    (* the rest of the proof does not depend on the kind of statement *)
    assert (G : exists s2, graph s2 = graph s1 /\ functions s2 = functions s1 /\
        (forall z, last_vertex s2 = Some z -> ~ In (z, k) (graph s2)) /\
        (forall q, used s1 q -> used s2 q) /\
        (settled s1 \/ is_return x = true) /\ fresh s2 env (flat_map other_part l) /\
        last_vertex s2 <> Some k /\ (forall a, In (a, k) (graph s2) -> ~ In a (env_vertices env)) /\
        visit_statements visit_stmt k l s2 = Some s').
    { destruct (is_return x) eqn:IR.
      - destruct x as [| |i e| | |]; try discriminate IR.
        pose proof (return_last _ _ _ _ E1) as (L1 & K & r & I & S1). rewrite LZ in L1. injection L1 as ->.
        rewrite S1 in E. destruct (Nat.eqb_spec K k) as [EK|]; [|discriminate]. subst K.
        exists (with_last None s1). split; [easy|]. split; [easy|]. split; [discriminate|]. split.
        { intros q [Q|Q]; [now left|]. left. rewrite LZ in Q. injection Q as <-. simpl. now rewrite S1. }
        split; [now right|].
        set (V := other_part (Return i e)) in *.
        assert (RX : reach (fun v => In v V) (fun v => own V env v \/ v = k) s s1).
        { assert (KX : kept Others (fun v => In v V) (fun v => own V env v \/ v = k) s s1).
          { apply (keeps_other (Return i e)); auto; [apply visit_stmt_keeps|left; now left| |].
            - intros n d q Q. destruct (rel_tabs _ _ R n d q Q). split; left; now right.
            - intros K r' Q _. right. congruence. }
          apply KX. }
        destruct RX as [(d & Q & N) _ _].
        assert (NA : forall v, In v (flat_map other_part l) -> ~ allowed (fun v => own V env v \/ v = k) s v).
        { intros v J [[[A|A]|A]|A].
          - destruct F as (ND & _). eapply NoDup_disjoint; eauto.
          - apply (fresh_disjoint _ _ _ F v); [|easy]. apply in_app_iff. now right.
          - congruence.
          - apply fresh_app_r in F as (_ & UF). now destruct (UF v J) as (_ & U2 & _). }
        split.
        { apply fresh_app_r in F as (ND & UF). split; [easy|]. intros v J. destruct (UF v J) as (V1 & V2 & V3).
          split; [easy|]. split; [easy|]. simpl. rewrite Q. intros a b Z. apply in_app_iff in Z as [Z|Z]; [now apply V3|].
          destruct (N a b Z) as (Na & Nb). split; intros ->; [now apply (NA v J)|now apply (NA v J)]. }
        split; [discriminate|]. split; [|easy]. simpl. intros a Z.
        (* only the return statement is linked to the sentinel *)
        clear N NA Q d. simpl in E1.
        assert (IV : ~ In i (env_vertices env)).
        { apply (fresh_disjoint _ _ _ F). apply in_app_iff. left. unfold V. simpl. destruct e; [apply in_app_iff; right|]; now left. }
        apply then_some in E1 as (s0 & E0 & E1). apply then_some in E1 as (sx & EX & E1).
        assert (RE : reach (fun v => In v V) (own V env) s sx).
        { assert (R0 : reach (fun v => In v V) (own V env) s s0 /\ functions s0 = functions s).
          { destruct e as [e|]; [|injection E0 as <-; split; [apply reach_refl|easy]].
            apply (expr_reach _ _ _ env) in E0 as (R0 & F0 & _); [|easy]. split; [|easy].
            eapply reach_weaken; [| |exact R0]; intros v; unfold V; simpl; [intros J; apply in_app_iff; now left|apply own_l]. }
          destruct R0 as (R0 & F0). eapply reach_trans; [exact R0|]. eapply reach_thread; [|exact EX].
          left. unfold V. simpl. destruct e; [apply in_app_iff; right|]; now left. }
        assert (LX : last_vertex sx = Some i) by (apply thread_to_some in EX as [(_ & ->)|(? & _ & _ & ->)]; easy).
        destruct (inside sx) as [|K r']; [discriminate|]. apply link_last_some in E1 as (y & Ly & _ & ->).
        rewrite LX in Ly. injection Ly as <-. simpl in Z. apply in_app_iff in Z as [Z|[[= <- _]|[]]]; [|easy].
        apply GK. destruct RE as [(d & Q & N) _ _]. rewrite Q in Z. apply in_app_iff in Z as [Z|Z]; [easy|].
        now destruct (N a k Z).
      - assert (KX : kept Others (fun v => In v (other_part x)) (own (other_part x) env) s s1).
        { apply (keeps_other x); auto; [apply visit_stmt_keeps|now left|now apply rel_own|congruence]. }
        destruct KX as (R1 & _).
        assert (GK1 : forall a, In (a, k) (graph s1) -> In (a, k) (graph s)).
        { intros a J. destruct R1 as [(d & Q & N) _ _]. rewrite Q in J. apply in_app_iff in J as [J|J]; [easy|].
          now destruct (N a k J). }
        assert (SZ : successors (graph s1) z = []).
        { destruct (successors (graph s1) z) as [|w r] eqn:SZ; [easy|].
          destruct (Nat.eqb_spec w k) as [->|]; [|discriminate]. exfalso.
          assert (J : In (z, k) (graph s)) by (apply GK1, in_successors; rewrite SZ; now left).
          destruct R1 as [_ _ LL]. destruct (LL z LZ) as [[A|A]|A].
          - apply fresh_app_l in F as (_ & UF). destruct (UF z A) as (_ & _ & U3). now destruct (U3 z k J).
          - now apply (GK z J).
          - now apply (ST z). }
        rewrite SZ in E. exists s1. split; [easy|]. split; [easy|].
        assert (ST1 : settled s1) by (intros v; rewrite LZ; now intros [= <-]).
        split; [intros v Q J; apply in_successors in J; now rewrite (ST1 v Q) in J|].
        split; [easy|]. split; [now left|]. split; [eapply fresh_after; eauto|].
        split; [|split; [|easy]].
        + intros Q. apply AK. destruct R1 as [_ _ LL]. now apply LL.
        + intros a J. apply GK. now apply GK1. }
    clear E. destruct G as (s2 & G2 & F2 & ST2 & U2 & C & Fr2 & L2 & GK2 & E).
    destruct (N1 C) as (ND1 & NU1).
    destruct (IH s2 s' env E) as (U3 & C3 & ND3 & NU3); auto; [now rewrite F2, F1|].
    split; [auto|]. split; [|split].
    + intros q I. apply in_app_iff in I as [I|I]; auto.
    + apply NoDup_join; auto. intros q I J. apply (NU3 q J). auto.
    + intros q I. apply in_app_iff in I as [I|I]; [auto|]. intros U. apply (NU3 q I). auto.
Qed.

Lemma scope_once i k l s s' env v : Forall stmt_once l -> Forall def_once l ->
  visit_scope visit_stmt (Block i k l) s = Some s' -> last_vertex s = Some v -> ~ In v (env_vertices env) ->
  rel (functions s) env -> fresh s env (block_vertices (Block i k l)) ->
  (forall q, used s q -> successors (graph s') q <> []) /\ NoDup (block_calls env (Block i k l)) /\
  forall q, In q (block_calls env (Block i k l)) -> ~ used s q /\ successors (graph s') q <> [].
Proof.
  intros HS HD E L NV R F. unfold visit_scope in E. rewrite L in E. unthen.
  set (s0' := with_last _ (with_functions _ s)) in E0.
  set (D := flat_map definition_part l) in *. set (O := flat_map other_part l) in *.
  assert (FP : fresh s env (i :: D ++ O ++ [k])).
  { eapply fresh_permutation; [|exact F]. unfold block_vertices, block_vertices_. simpl.
    constructor. rewrite app_assoc. apply Permutation_app_tail. apply parts_permutation. }
  assert (NDP : NoDup (i :: D ++ O ++ [k])) by apply FP.
  assert (iN : ~ In i (D ++ O ++ [k])) by now inversion NDP.
  assert (F0 : fresh s0' env (D ++ O ++ [k])).
  { apply (fresh_same (with_last (Some i) s)); try easy. apply fresh_last; [|easy].
    apply (fresh_app_r _ _ [i]) in FP. exact FP. }
  assert (R0 : rel (functions s0') env) by (unfold s0'; simpl; now apply rel_push).
  destruct (definitions_once l HD s0' s0 env (fresh_app_l _ _ _ _ F0) R0 E0) as (R1 & ND1 & C1).
  assert (KD : kept Definitions (fun v => In v D) (own D env) s0' s0).
  { apply (visit_definitions_kept _ _ l); auto; [|now left|now apply rel_own].
    apply Forall_forall. intros. apply visit_stmt_keeps. }
  destruct KD as (RD & ID & _ & OD & _).
  pose proof (fresh_after _ _ _ _ _ _ F0 RD) as FO.
  assert (ne_v : forall w, In w (block_vertices (Block i k l)) -> w <> v).
  { intros w I ->. destruct F as (_ & U). now destruct (U v I) as (_ & U2 & _). }
  assert (vi : i <> v) by (apply ne_v; now left).
  set (s0'' := with_last (Some i) _) in E1. set (env' := known l env) in *.
  assert (EV : forall w, In w (env_vertices env') <-> In w D \/ In w (env_vertices env)) by (intros; apply known_vertices).
  assert (iE : ~ In i (env_vertices env)).
  { apply (fresh_disjoint _ _ _ F). now left. }
  assert (NDk : NoDup (D ++ O ++ [k])) by now inversion NDP.
  assert (kD : ~ In k D).
  { intros J. eapply (NoDup_disjoint D); [exact NDk|exact J|]. apply in_app_iff. right. now left. }
  assert (kO : ~ In k O).
  { intros J. apply NoDup_right in NDk. eapply (NoDup_disjoint O); [exact NDk|exact J|]. now left. }
  assert (kE : ~ In k (env_vertices env)).
  { apply (fresh_disjoint _ _ _ F). right. apply in_app_iff. right. now left. }
  assert (ik : i <> k) by (intros ->; apply iN; rewrite !in_app_iff; right; right; now left).
  assert (FO' : fresh s0'' env' (O ++ [k])).
  { split; [apply FO|]. intros w J. destruct FO as (_ & U). destruct (U w J) as (U1 & U2 & U3).
    split; [|split].
    - rewrite EV. intros [Q|Q]; [|easy]. eapply (NoDup_disjoint D); [exact NDk|exact Q|exact J].
    - simpl. intros [= ->]. apply iN. apply in_app_iff. now right.
    - simpl. intros a b Q. apply in_app_iff in Q as [Q|[[= <- <-]|[]]]; [now apply U3|].
      split; intros ->.
      + apply (ne_v w); [|easy]. right. simpl. rewrite in_app_iff.
        apply in_app_iff in J as [J|J]; [left; now apply other_part_in|now right].
      + apply iN. apply in_app_iff. now right. }
  assert (GK : forall a, ~ In (a, k) (graph s0'')).
  { intros a Q. destruct FO' as (_ & U). destruct (U k) as (_ & _ & U3); [apply in_app_iff; right; now left|].
    now destruct (U3 a k Q). }
  destruct (statements_once k l HS s0'' s1 env') as (U1 & C2 & ND2 & NU2); auto.
  { now apply fresh_app_l in FO'. }
  { rewrite EV. tauto. }
  { simpl. congruence. }
  { intros a Q. now apply GK in Q. }
  assert (G' : graph s' = graph s2).
  { destruct (pop_scope (functions s2)); [|discriminate]. injection E as <-. easy. }
  rewrite G'. clear E G'.
  assert (UF : forall q, used s1 q -> successors (graph s2) q <> []).
  { unfold finish in E2. destruct (last_vertex s1) as [z|] eqn:LZ.
    - unfold visit_sentinel in E2. unthen. injection E2 as <-. simpl. intros q Q. eapply link_uses; eauto.
    - intros q [Q|Q]; [|congruence]. destruct (rev l); [discriminate|].
      destruct (successors (graph s1) (stmt_vertex t)); [discriminate|]. destruct (n =? k); [|discriminate].
      now injection E2 as <-. }
  assert (G0 : forall q, successors (graph s0) q <> [] -> used s0'' q).
  { intros q Q. left. simpl. unfold add_successor. rewrite successors_app. now destruct (successors (graph s0) q). }
  assert (US : forall q, used s q -> used s0'' q).
  { intros q [Q|Q].
    - apply G0. eapply grown; [exact RD|exact Q].
    - left. rewrite L in Q. injection Q as <-. simpl. unfold add_successor.
      rewrite successors_app, successors_one, Nat.eqb_refl. now destruct (successors (graph s0) v). }
  split; [auto|]. unfold block_calls, block_calls_. simpl block_statements. fold env'. split.
  - apply NoDup_join; auto. intros q I J. destruct (C1 q I) as (_ & Q). apply (NU2 q J). auto.
  - intros q I. apply in_app_iff in I as [I|I].
    + destruct (C1 q I) as (Q1 & Q2). split; [|auto]. intros [Q|Q]; [easy|]. rewrite L in Q. injection Q as <-.
      apply definition_calls_fit in I as [I|I]; [| |apply all_fit].
      * apply NV. now apply env_exits_vertices.
      * apply (ne_v v); [|easy]. right. apply in_app_iff. left. now apply definition_part_in.
    + split; [|auto]. intros Q. apply (NU2 q I). auto.
Qed.

Lemma definition_once i n a b : Forall (fun x => stmt_once x /\ def_once x) (block_statements b) ->
  def_once (Definition_ i n a b).
Proof.
  intros HB s s' env F R E. rewrite definition_vertices in F. simpl in E. unthen. apply at_vertex_some in E2 as (-> & L2).
  destruct (add_value (functions s1) n (i, block_sentinel b)) as [t|] eqn:EA; [|discriminate].
  destruct (match last_vertex s with Some v => v =? block_sentinel b | None => false end); [discriminate|].
  destruct (has_successor (graph s1) (block_sentinel b)); [discriminate|]. injection E as <-.
  set (sa := with_last _ (with_inside _ s)) in E0. simpl graph in *.
  assert (NDF : NoDup (i :: a ++ block_vertices b)) by apply F.
  assert (iN : ~ In i (a ++ block_vertices b)) by now inversion NDF.
  assert (iE : ~ In i (env_vertices env)) by (apply (fresh_disjoint _ _ _ F); now left).
  assert (Fa : fresh sa env (a ++ block_vertices b)).
  { apply (fresh_same (with_last (Some i) s)); try easy. apply fresh_last; [|easy].
    apply (fresh_app_r _ _ [i]) in F. exact F. }
  destruct (visits_thread_last _ _ _ i E0 eq_refl) as (w & LW & WI).
  pose proof (visits_thread_fine (fun v => In v a) (own a env) a (fun v I => or_introl I) _ _ E0) as (RA & FA & IA).
  pose proof (fresh_after _ _ _ _ _ _ Fa RA) as FB.
  assert (Rel0 : rel (functions s0) env) by (rewrite FA; exact R).
  assert (wE : ~ In w (env_vertices env)).
  { destruct WI as [->|WI]; [easy|]. apply (fresh_disjoint _ _ _ F). right. apply in_app_iff. now left. }
  destruct b as [bi bk l]. simpl block_statements in *.
  destruct (scope_once bi bk l s0 s1 env w) as (U & ND & C); auto.
  { eapply Forall_impl; [|exact HB]. now intros x (Q & _). }
  { eapply Forall_impl; [|exact HB]. now intros x (_ & Q). }
  change (stmt_calls env (Definition_ i n a (Block bi bk l))) with (block_calls env (Block bi bk l)).
  split; [easy|]. intros q I. destruct (C q I) as (Q1 & Q2). split; [|easy].
  destruct (successors (graph s) q) eqn:S; [easy|]. exfalso. apply Q1. left.
  eapply grown; [exact RA|]. unfold sa. simpl. now rewrite S.
Qed.

Lemma choice_once i k c t f :
  Forall (fun x => stmt_once x /\ def_once x) (block_statements t) ->
  Forall (fun x => stmt_once x /\ def_once x) (block_statements f) -> stmt_once (Choice i k c t f).
Proof.
  intros HT HF s s' env F R E.
  change (other_part (Choice i k c t f)) with (stmt_vertices (Choice i k c t f)) in F.
  change (ocalls env (Choice i k c t f)) with (expr_calls env c ++ block_calls env t ++ block_calls env f).
  rewrite choice_vertices in F. simpl in E. unthen. apply at_vertex_some in E3 as (-> & L3).
  injection E as <-.
  set (T := block_vertices t) in *. set (Fv := block_vertices f) in *.
  change (expr_vertices c ++ i :: T ++ Fv ++ [k]) with (expr_vertices c ++ [i] ++ T ++ Fv ++ [k]) in *.
  destruct (expr_once_all c s s0 env R E0) as (ST & U0 & C0 & N0).
  destruct (N0 (link_settled _ _ _ E1)) as (ND0 & NU0).
  pose proof (expr_reach _ _ _ _ E0 R) as (R0 & F0 & I0).
  pose proof (fresh_after _ _ _ _ _ _ F R0) as Fr0.
  set (sI := with_last (Some i) s1) in *.
  pose proof E1 as E1'. apply link_last_some in E1' as (zc & LC & SC & Q1).
  assert (ET : thread_to i s0 = Some sI) by (unfold thread_to; rewrite LC, E1; easy).
  rewrite app_assoc in F.
  assert (iU : untouched s0 env i) by (apply Fr0; now left). destruct iU as (iE & iL & iG).
  assert (RI : reach (fun v => In v (expr_vertices c ++ [i])) (own (expr_vertices c ++ [i]) env) s sI).
  { eapply reach_trans.
    - eapply reach_weaken; [| |exact R0]; intros w J; [apply in_app_iff; now left|now apply own_l].
    - eapply reach_thread; [|exact ET]. left. apply in_app_iff. right. now left. }
  pose proof (fresh_after _ _ _ _ _ _ F RI) as FI.
  assert (FTI : functions sI = functions s) by (unfold sI; rewrite Q1; exact F0).
  assert (RelI : rel (functions sI) env) by now rewrite FTI.
  assert (iN : ~ In i (T ++ Fv ++ [k])).
  { intros J. destruct FI as (_ & U). destruct (U i J) as (_ & U2 & _). now apply U2. }
  assert (GI : graph sI = graph s1) by easy.
  (* the true scope *)
  destruct (scope_closed t sI s2 env i E2 eq_refl RelI) as ((R2 & F2 & I2) & _).
  assert (ONt : (forall q, used sI q -> successors (graph s2) q <> []) /\ NoDup (block_calls env t) /\
    forall q, In q (block_calls env t) -> ~ used sI q /\ successors (graph s2) q <> []).
  { destruct t as [ti tk tl]. simpl block_statements in *. apply (scope_once ti tk tl sI s2 env i); auto.
    - eapply Forall_impl; [|exact HT]. now intros x (Q & _).
    - eapply Forall_impl; [|exact HT]. now intros x (_ & Q).
    - now apply fresh_app_l in FI. }
  destruct ONt as (U2 & ND2 & C2).
  pose proof E4 as E4'. apply link_last_some in E4' as (tk & L4 & S4 & Q4).
  assert (UI : forall q, used s0 q -> used sI q) by (intros q Q; left; rewrite GI; eapply link_uses; eauto).
  assert (U4 : forall q, successors (graph s2) q <> [] -> successors (graph s4) q <> []).
  { intros q Q. eapply link_uses; [exact E4|]. now left. }
  (* the false scope *)
  assert (ONf : (forall q, successors (graph s4) q <> [] -> successors (graph s5) q <> []) /\ NoDup (block_calls env f) /\
    forall q, In q (block_calls env f) -> successors (graph s4) q = [] /\ successors (graph s5) q <> []).
  { assert (FP : fresh sI env ((T ++ [k]) ++ Fv)).
    { eapply fresh_permutation; [|exact FI]. rewrite <- app_assoc. apply Permutation_app_head.
      apply Permutation_app_comm. }
    assert (R4 : reach (fun v => In v T \/ v = i) (own (T ++ [k]) env) sI s4).
    { eapply reach_trans.
      - apply (reach_same _ _ sI s2); try easy. constructor.
        + destruct R2 as [(d & Q & N) _ _]. exists d. split; [easy|]. intros v w I.
          assert (H : forall v, allowed (fun w => own T env w \/ w = i) sI v -> allowed (own (T ++ [k]) env) sI v).
          { intros x [[X|X]|X]; [left; now apply own_l|right; now rewrite X|now right]. }
          destruct (N v w I). split; now apply H.
        + apply R2.
        + intros v I. destruct R2 as [_ _ LL]. destruct (LL v I) as [[X|X]|X]; [left; now apply own_l|right; now rewrite X|now right].
      - eapply reach_link; [|exact E4]. left. apply in_app_iff. right. now left. }
    pose proof (fresh_after _ _ _ _ _ _ FP R4) as F4.
    assert (iF : ~ In i Fv) by (intros J; apply iN; rewrite !in_app_iff; auto).
    pose proof (fresh_last _ _ _ _ F4 iF) as F4'.
    destruct f as [fi fk fl]. simpl block_statements in *. destruct fl as [|x fl].
    - injection E5 as <-. split; [easy|]. apply no_calls.
    - apply then_some in E5 as (s6 & E6 & E5). apply then_some in E5 as (s7 & E7 & E5).
      apply at_vertex_some in E7 as (-> & L6).
      assert (FT4 : functions s4 = functions sI) by (rewrite Q4; simpl; exact F2).
      assert (Rel4 : rel (functions (with_last (Some i) s4)) env) by (simpl; now rewrite FT4).
      destruct (scope_once fi fk (x :: fl) (with_last (Some i) s4) s6 env i) as (U6 & ND6 & C6); auto.
      + eapply Forall_impl; [|exact HF]. now intros y (Q & _).
      + eapply Forall_impl; [|exact HF]. now intros y (_ & Q).
      + assert (U5 : forall q, successors (graph s6) q <> [] -> successors (graph s5) q <> []).
        { intros q Q. eapply link_uses; [exact E5|]. now left. }
        split; [|split; [easy|]].
        * intros q Q. apply U5, U6. now left.
        * intros q I. destruct (C6 q I) as (Q6 & Q7). split; [|auto].
          destruct (successors (graph s4) q) eqn:S; [easy|]. exfalso. apply Q6. left. simpl. now rewrite S. }
  destruct ONf as (U5 & ND5 & C5).
  assert (UC : forall q, In q (expr_calls env c) -> used sI q) by auto.
  assert (US : forall q, used s q -> used sI q) by (intros q Q; apply UI; left; auto).
  split; [|split].
  - intros q Q. left. simpl. auto.
  - intros q I. left. simpl. rewrite !in_app_iff in I. destruct I as [I|[I|I]]; [auto| |now apply C5].
    apply U5, U4. now apply C2.
  - intros _. split.
    + apply NoDup_join; auto.
      * apply NoDup_join; auto. intros q I J. destruct (C2 q I) as (_ & Q), (C5 q J) as (Q' & _).
        now apply (U4 q).
      * intros q I J. apply in_app_iff in J as [J|J].
        -- destruct (C2 q J) as (Q & _). auto.
        -- destruct (C5 q J) as (Q & _). apply (U4 q); auto.
    + intros q I. rewrite !in_app_iff in I. destruct I as [I|[I|I]]; [auto| |]; intros Q.
      * destruct (C2 q I) as (Q' & _). auto.
      * destruct (C5 q I) as (Q' & _). apply (U4 q); auto.
Qed.

Lemma stmts_once x : stmt_once x /\ def_once x.
Proof.
  induction x using tstmt_induction.
  - split; [|easy]. intros s s' env F R E. destruct (expr_once_all e s s' env R E) as (T & U & C & N).
    split; [intros q Q; left; auto|]. split; [easy|]. intros [Q|Q]; [auto|discriminate].
  - split; [|easy]. intros s s' env F R E. simpl in E. unthen.
    destruct (last_vertex s1) eqn:L1; [|discriminate].
    assert (H : exprs_once [e; t]) by (apply exprs_once_all; constructor; [apply expr_once_all|constructor; [apply expr_once_all|constructor]]).
    destruct (exprs_then_once [e; t] i s s' env H R) as (T & U & C & ND & NU).
    { simpl. rewrite E0. simpl. now rewrite E1. }
    simpl in C, ND, NU |- *. rewrite app_nil_r in *. split; [intros q Q; left; auto|]. split; [intros q I; left; auto|].
    easy.
  - split; [|easy]. intros s s' env F R E. simpl in E. unthen.
    destruct (inside s1) as [|K r]; [discriminate|].
    assert (H : exists l, exprs_once l /\ flat_map (expr_calls env) l = ocalls env (Return i e) /\
              visits visit_expr l s = Some s0).
    { destruct e as [e|].
      - exists [e]. split; [apply exprs_once_all; constructor; [apply expr_once_all|constructor]|].
        simpl in *. rewrite app_nil_r. split; [easy|]. now rewrite E0.
      - exists []. split; [apply exprs_once_all; constructor|]. split; [easy|]. now rewrite <- E0. }
    destruct H as (l & H & EL & EV).
    destruct (exprs_then_once l i s s1 env H R) as (T & U & C & ND & NU); [now rewrite EV|].
    rewrite EL in C, ND, NU. split; [|split].
    + intros q Q. left. eapply link_uses; [exact E|]. left. auto.
    + intros q Q. left. eapply link_uses; [exact E|]. left. auto.
    + easy.
  - split; [|easy]. now apply choice_once.
  - split; [|easy]. intros s s' env F R E. discriminate E.
  - split; [|now apply definition_once].
    intros s s' env F R E. simpl in E. injection E as <-. split; [easy|]. split; [easy|]. intros _. apply no_calls.
Qed.

(** ** Modules *)

Lemma module_needs m g : NoDup (module_vertices m) -> thread_module m [] = Some g -> threadable m.
Proof.
  destruct m as [i b]. simpl module_vertices. intros ND E. unfold thread_module in E.
  destruct (visit_scope visit_stmt b _) as [s|] eqn:ES; [|discriminate]. clear E.
  apply NoDup_cons_iff in ND as (NI & ND').
  set (s0 := {| graph := []; last_vertex := Some i; functions := []; inside := [] |}) in ES.
  destruct b as [bi k l].
  destruct (scope_sound bi k l false s0 s) as ((C1 & C2 & C3) & C4); auto.
  { apply Forall_forall. intros. apply all_sound. }
  { easy. }
  destruct (scope_once bi k l s0 s [] i) as (_ & NC & _); auto.
  { apply Forall_forall. intros. apply stmts_once. }
  { apply Forall_forall. intros. apply stmts_once. }
  { easy. }
  { split; [easy|]. intros v I. split; [easy|]. split; [|easy]. simpl. intros [= ->]. easy. }
  unfold threadable, module_loops, stray_return, late_definition, module_calls. simpl block_statements.
  now rewrite C4, C3.
Qed.

(** A tree that has been threaded cannot be threaded again. *)
Lemma module_twice m g h : thread_module m g = Some h -> forall d, thread_module m (h ++ d) = None.
Proof.
  destruct m as [i b]. intros E d. unfold thread_module in E |- *.
  destruct (visit_scope visit_stmt b _) as [s|] eqn:ES; [|discriminate].
  destruct (link_last i s) as [s1|] eqn:EL; [|discriminate].
  destruct (inside s1); [|discriminate]. destruct (empty (functions s1)); [|discriminate]. injection E as <-.
  apply scope_stay in ES as (_ & LS). apply link_last_some in EL as (k & L & _ & ->).
  assert (k = block_sentinel b) as -> by congruence. simpl graph.
  set (s0 := {| graph := _; last_vertex := _; functions := _; inside := _ |}).
  destruct (visit_scope visit_stmt b s0) as [s2|] eqn:E2; [|easy].
  pose proof (scope_stay _ _ _ E2) as (_ & L2). unfold link_last. rewrite L2. unfold set_successor, has_successor.
  assert (G : successors (graph s2) (block_sentinel b) <> []).
  { destruct (visit_scope_kept (fun _ => True) (fun _ => True) b s0 s2 i) as ((RS & _) & _); auto.
    - apply Forall_forall. intros. apply visit_stmt_keeps.
    - apply any_tabs.
    - eapply grown; [exact RS|]. simpl. rewrite !successors_app, successors_one, Nat.eqb_refl.
      now destruct (successors (graph s) (block_sentinel b)). }
  now destruct (successors (graph s2) (block_sentinel b)).
Qed.
