(** * Proofs for threading: what is threaded *)

From Coq Require Import String List Bool Arith Lia Permutation.
From Verif Require Import AstModel SymbolModel SymbolProofs ThreadModel ThreadSpec ThreadProofs ThreadRunProofs.
Import ListNotations.

Definition env_exits (env : list function) : list nat := map (fun f => block_sentinel (fn_block f)) env.
Definition apart (env : list function) (L : list nat) : Prop := forall v, In v L -> ~ In v (env_exits env).
Definition disjoint (A B : list nat) : Prop := forall v, In v A -> In v B -> False.

Lemma lookup_exit env n f outer : lookup env n = Some (f, outer) -> In (block_sentinel (fn_block f)) (env_exits env).
Proof.
  intros L. apply lookup_split in L as (pre & ->). unfold env_exits. rewrite map_app, in_app_iff. right. now left.
Qed.

Lemma env_exits_vertices env v : In v (env_exits env) -> In v (env_vertices env).
Proof.
  intros I. apply in_map_iff in I as (f & <- & I). apply in_flat_map. exists f. split; [easy|].
  right. apply in_app_iff. right. right. apply in_app_iff. right. now left.
Qed.

Lemma NoDup_apart {A} (l l' : list A) : NoDup (l ++ l') -> NoDup l /\ NoDup l' /\ (forall v, In v l -> In v l' -> False).
Proof.
  intros N. split; [now apply NoDup_left in N|]. split; [now apply NoDup_right in N|].
  intros v. now apply NoDup_disjoint.
Qed.

Lemma NoDup_join {A} (l l' : list A) : NoDup l -> NoDup l' -> (forall v, In v l -> In v l' -> False) -> NoDup (l ++ l').
Proof.
  induction 1 as [|a l N ND IH]; intros H D; [easy|]. simpl. constructor.
  - rewrite in_app_iff. intros [I|I]; [easy|]. apply (D a); [now left|easy].
  - apply IH; [easy|]. intros v I. apply D. now right.
Qed.

(** ** The calls of a statement *)

Lemma expr_calls_exits env e : forall k, In k (expr_calls env e) -> In k (env_exits env).
Proof.
  assert (HL : forall l, Forall (fun e => forall k, In k (expr_calls env e) -> In k (env_exits env)) l ->
     forall k, In k (flat_map (expr_calls env) l) -> In k (env_exits env)).
  { intros l H k I. apply in_flat_map in I as (x & X & I). rewrite Forall_forall in H. eauto. }
  induction e using texpr_induction; intros k I; simpl in I.
  - easy.
  - apply in_app_iff in I as [I|I]; [eapply HL; eauto|].
    destruct (lookup env n) as [[f outer]|] eqn:L; [|easy]. destruct I as [<-|[]]. now apply lookup_exit in L.
  - eapply HL; eauto.
  - apply in_app_iff in I as [I|I]; auto.
  - auto.
Qed.

(** The vertices of a statement other than the sentinel through which a function is left. *)
Definition def_inner (x : tstmt) : list nat :=
  match x with
  | Definition_ i _ a b => i :: a ++ block_id b :: flat_map stmt_vertices (block_statements b)
  | _ => []
  end.
Definition inner (x : tstmt) : list nat :=
  match x with Definition_ _ _ _ _ => def_inner x | _ => stmt_vertices x end.

Lemma inner_vertices x v : In v (inner x) -> In v (stmt_vertices x).
Proof.
  destruct x; auto. unfold inner, def_inner. rewrite definition_vertices. simpl. rewrite !in_app_iff.
  unfold block_vertices, block_vertices_. simpl. rewrite in_app_iff. tauto.
Qed.

Lemma known_exits l : forall env v,
  In v (env_exits (known l env)) -> In v (env_exits env) \/ In v (flat_map definition_part l).
Proof.
  induction l as [|x l IH]; intros env v I; [now left|].
  destruct x as [| | | | |i n a b]; try (simpl known in I; apply IH in I; exact I).
  simpl known in I. rewrite parts_cons, in_app_iff. apply IH in I as [I|I]; [|now right; right].
  destruct I as [<-|I]; [|now left]. right. left. rewrite definition_vertices. right. apply in_app_iff. right.
  right. apply in_app_iff. right. now left.
Qed.

Definition calls_fit (x : tstmt) : Prop := forall env k, In k (stmt_calls env x) ->
  In k (env_exits env) \/ In k (inner x).

Lemma definition_calls_fit l : Forall calls_fit l -> forall env k,
  In k (definition_calls stmt_calls env l) -> In k (env_exits env) \/ In k (flat_map definition_part l).
Proof.
  induction 1 as [|x l HX HL IH]; intros env k I; [easy|].
  destruct x as [| | | | |i n a b]; try (simpl in I; apply IH in I; exact I).
  rewrite parts_cons, in_app_iff. simpl definition_calls in I. apply in_app_iff in I as [I|I].
  - apply HX in I as [I|I]; [now left|]. right. left. now apply inner_vertices.
  - apply IH in I as [[<-|I]|I]; [|now left|now right; right]. right. left. rewrite definition_vertices. right.
    apply in_app_iff. right. right. apply in_app_iff. right. now left.
Qed.

Lemma other_calls_fit l : Forall calls_fit l -> forall env k,
  In k (other_calls stmt_calls env l) -> In k (env_exits env) \/ In k (flat_map other_part l).
Proof.
  induction 1 as [|x l HX HL IH]; intros env k I; [easy|].
  change (other_calls stmt_calls env (x :: l)) with
    (match x with Definition_ _ _ _ _ => [] | _ => stmt_calls env x end ++ other_calls stmt_calls env l) in I.
  simpl flat_map. rewrite in_app_iff. apply in_app_iff in I as [I|I].
  - destruct x as [| | | | |i n a b]; try (apply HX in I as [I|I]; [now left|now right; left]); easy.
  - apply IH in I as [I|I]; auto.
Qed.

Lemma block_calls_fit b : Forall calls_fit (block_statements b) -> forall env k,
  In k (block_calls env b) -> In k (env_exits env) \/ In k (flat_map stmt_vertices (block_statements b)).
Proof.
  intros H env k I. unfold block_calls, block_calls_ in I. apply in_app_iff in I as [I|I].
  - apply definition_calls_fit in I as [I|I]; auto. right. now apply definition_part_in.
  - apply other_calls_fit in I as [I|I]; auto; [|right; now apply other_part_in].
    apply known_exits in I as [I|I]; [now left|]. right. now apply definition_part_in.
Qed.

Lemma block_inner b v : In v (flat_map stmt_vertices (block_statements b)) -> In v (block_vertices b).
Proof. intros I. right. apply in_app_iff. now left. Qed.

Lemma stmt_calls_fit x : calls_fit x.
Proof.
  induction x using tstmt_induction; intros env q I; simpl in I.
  - left. eapply expr_calls_exits; eauto.
  - apply in_app_iff in I as [I|I]; left; eapply expr_calls_exits; eauto.
  - destruct e; [left; eapply expr_calls_exits; eauto|easy].
  - unfold inner. rewrite choice_vertices. rewrite !in_app_iff in I.
    destruct I as [I|[I|I]]; [left; eapply expr_calls_exits; eauto| |];
      apply block_calls_fit in I as [I|I]; auto; apply block_inner in I; right; apply in_app_iff; right; right;
      rewrite !in_app_iff; tauto.
  - unfold inner. change (stmt_vertices (Loop i c t f)) with
      (expr_vertices c ++ i :: block_vertices t ++ block_vertices f). rewrite !in_app_iff in I.
    destruct I as [I|[I|I]]; [left; eapply expr_calls_exits; eauto| |];
      apply block_calls_fit in I as [I|I]; auto; apply block_inner in I; right; apply in_app_iff; right; right;
      rewrite !in_app_iff; tauto.
  - apply block_calls_fit in I as [I|I]; auto. right. simpl. right. apply in_app_iff. right. now right.
Qed.

Lemma all_fit l : Forall calls_fit l.
Proof. apply Forall_forall. intros. apply stmt_calls_fit. Qed.

Lemma areas_disjoint env V1 K1 V2 K2 : NoDup (V1 ++ V2) -> NoDup (K1 ++ K2) -> apart env (V1 ++ V2) ->
  (forall k, In k K1 -> In k (env_exits env) \/ In k V1) ->
  (forall k, In k K2 -> In k (env_exits env) \/ In k V2) -> disjoint (V1 ++ K1) (V2 ++ K2).
Proof.
  intros NV NK AP F1 F2 v I J. apply NoDup_apart in NV as (_ & _ & DV). apply NoDup_apart in NK as (_ & _ & DK).
  assert (A1 : In v V1 -> ~ In v (env_exits env)) by (intros; apply AP, in_app_iff; now left).
  assert (A2 : In v V2 -> ~ In v (env_exits env)) by (intros; apply AP, in_app_iff; now right).
  apply in_app_iff in I as [I|I], J as [J|J].
  - eauto. - destruct (F2 v J); eauto. now apply A1. - destruct (F1 v I); eauto. now apply A2. - eauto.
Qed.

(** ** Visits that go well *)

Definition free (g : links) (A : list nat) : Prop := forall v, In v A -> successors g v = [].
Definition ready (s : thread) (A : list nat) : Prop :=
  (forall l, last_vertex s = Some l -> ~ In l A /\ successors (graph s) l = []) /\ free (graph s) A.
Definition moved (s s' : thread) (A : list nat) : Prop :=
  (forall l, last_vertex s' = Some l -> (In l A \/ last_vertex s = Some l) /\ successors (graph s') l = []) /\
  (forall v, ~ In v A -> last_vertex s <> Some v -> successors (graph s') v = successors (graph s) v) /\
  stay s s'.

Lemma moved_refl s A : ready s A -> moved s s A.
Proof. intros (L & F). split; [|easy]. intros l Q. split; [now right|]. now apply L. Qed.

Lemma moved_trans s1 s2 s3 A B : moved s1 s2 A -> moved s2 s3 B -> moved s1 s3 (A ++ B).
Proof.
  intros (L & F & S) (L' & F' & S'). split; [|split; [|eapply stay_trans; eauto]].
  - intros l Q. rewrite in_app_iff. destruct (L' l Q) as ([H|H] & N); [tauto|]. destruct (L l H) as ([?|?] & _); tauto.
  - intros v NI NL. rewrite in_app_iff in NI. rewrite F', F; auto. intros H. destruct (L v H) as ([?|?] & _); tauto.
Qed.

Lemma moved_more s s' A B : (forall v, In v A -> In v B) -> moved s s' A -> moved s s' B.
Proof.
  intros H (L & F & S). split; [|split; [|easy]].
  - intros l Q. destruct (L l Q) as ([I|I] & N); auto.
  - intros v NI NL. apply F; auto.
Qed.

Lemma ready_less s A B : (forall v, In v B -> In v A) -> ready s A -> ready s B.
Proof.
  intros H (L & F). split; [|intros v I; auto]. intros l Q. destruct (L l Q) as (N & E). split; auto.
Qed.

Lemma ready_after s s' A B C : ready s C -> (forall v, In v B -> In v C) -> disjoint A B -> moved s s' A -> ready s' B.
Proof.
  intros (L & F) BC D (L' & F' & S). split.
  - intros l Q. destruct (L' l Q) as ([I|I] & N); split; auto.
    + intros J. exact (D l I J).
    + intros J. destruct (L l I) as (X & _). auto.
  - intros v I. rewrite F'; auto.
    + intros J. exact (D v J I).
    + intros Q. destruct (L v Q) as (X & _). auto.
Qed.

Lemma then_total f g s A B C (Q : thread -> Prop) : ready s C ->
  (forall v, In v C <-> In v A \/ In v B) -> disjoint A B ->
  (exists s1, f s = Some s1 /\ moved s s1 A) ->
  (forall s1, f s = Some s1 -> stay s s1 -> moved s s1 A -> ready s1 B -> exists s2, g s1 = Some s2 /\ moved s1 s2 B /\ Q s2) ->
  exists s2, then_ (f s) g = Some s2 /\ moved s s2 C /\ Q s2.
Proof.
  intros R E D (s1 & E1 & M1) H.
  assert (R1 : ready s1 B) by (eapply ready_after; eauto; intros v I; apply E; now right).
  destruct (H s1 E1 (proj2 (proj2 M1)) M1 R1) as (s2 & E2 & M2 & Q2). exists s2. rewrite E1. split; [easy|].
  split; [|easy]. eapply moved_more; [|eapply moved_trans; eauto]. intros v. rewrite in_app_iff. apply E.
Qed.

Lemma thread_total v s : ready s [v] -> exists s', thread_to v s = Some s' /\ moved s s' [v] /\ last_vertex s' = Some v.
Proof.
  intros (L & F). unfold thread_to, link_last, set_successor, has_successor.
  destruct (last_vertex s) as [l|] eqn:EL.
  - destruct (L l eq_refl) as (N & E). rewrite E. eexists. split; [reflexivity|]. split; [|easy].
    split; [|split; [|easy]]; simpl; unfold add_successor.
    + intros q [= <-]. split; [left; now left|]. rewrite successors_app, (F v), successors_one by now left.
      destruct (Nat.eqb_spec l v) as [->|]; [|easy]. exfalso. apply N. now left.
    + intros q NI NL. rewrite successors_app, successors_one. destruct (Nat.eqb_spec l q) as [->|]; [|apply app_nil_r].
      now rewrite EL in NL.
  - eexists. split; [reflexivity|]. split; [|easy]. split; [|easy]. simpl. intros q [= <-]. split; [left; now left|].
    apply F. now left.
Qed.

Definition expr_goes (e : texpr) : Prop := forall s env, rel (functions s) env ->
  NoDup (expr_vertices e) -> NoDup (expr_calls env e) -> apart env (expr_vertices e) ->
  ready s (expr_vertices e ++ expr_calls env e) ->
  exists s', visit_expr e s = Some s' /\ moved s s' (expr_vertices e ++ expr_calls env e) /\ last_vertex s' <> None.

Lemma apart_app env A B : apart env (A ++ B) -> apart env A /\ apart env B.
Proof. intros H. split; intros v I; apply H, in_app_iff; auto. Qed.

Lemma exprs_go l : Forall expr_goes l -> forall s env, rel (functions s) env ->
  NoDup (flat_map expr_vertices l) -> NoDup (flat_map (expr_calls env) l) -> apart env (flat_map expr_vertices l) ->
  ready s (flat_map expr_vertices l ++ flat_map (expr_calls env) l) ->
  exists s', visits visit_expr l s = Some s' /\
    moved s s' (flat_map expr_vertices l ++ flat_map (expr_calls env) l).
Proof.
  induction 1 as [|e l HE HL IH]; intros s env R NV NK AP RD.
  - exists s. split; [easy|]. now apply moved_refl.
  - simpl flat_map in *.
    destruct (then_total (visit_expr e) (visits visit_expr l) s (expr_vertices e ++ expr_calls env e)
      (flat_map expr_vertices l ++ flat_map (expr_calls env) l) _ (fun _ => True) RD) as (s2 & E & M & _).
    + intros v. rewrite !in_app_iff. tauto.
    + apply (areas_disjoint env); auto.
      * intros k I. left. eapply expr_calls_exits; eauto.
      * intros k I. left. apply in_flat_map in I as (x & _ & I). eapply expr_calls_exits; eauto.
    + apply NoDup_apart in NV as (? & _), NK as (? & _). apply apart_app in AP as (? & _).
      destruct (HE s env) as (s' & E & M & _); eauto. eapply ready_less; [|exact RD].
      intros v. rewrite !in_app_iff. tauto.
    + intros s1 _ (FS & _) _ R1. apply NoDup_apart in NV as (_ & ? & _), NK as (_ & ? & _). apply apart_app in AP as (_ & ?).
      destruct (IH s1 env) as (s2 & E & M); eauto. now rewrite FS.
    + exists s2. now split.
Qed.

Lemma snoc_disjoint env V K i : NoDup (V ++ [i]) -> apart env (V ++ [i]) ->
  (forall k, In k K -> In k (env_exits env) \/ In k V) -> disjoint (V ++ K) [i].
Proof.
  intros N A F v I [<-|[]]. apply NoDup_apart in N as (_ & _ & D). apply in_app_iff in I as [I|I].
  - apply (D i I). now left.
  - destruct (F i I) as [J|J]; [|apply (D i J); now left].
    apply (A i); [apply in_app_iff; right; now left|easy].
Qed.

Lemma exprs_then l i s env : Forall expr_goes l -> rel (functions s) env ->
  NoDup (flat_map expr_vertices l ++ [i]) -> NoDup (flat_map (expr_calls env) l) ->
  apart env (flat_map expr_vertices l ++ [i]) ->
  ready s ((flat_map expr_vertices l ++ [i]) ++ flat_map (expr_calls env) l) ->
  exists s', then_ (visits visit_expr l s) (thread_to i) = Some s' /\
    moved s s' ((flat_map expr_vertices l ++ [i]) ++ flat_map (expr_calls env) l) /\ last_vertex s' = Some i.
Proof.
  intros H R NV NK AP RD.
  apply (then_total (visits visit_expr l) (thread_to i) s (flat_map expr_vertices l ++ flat_map (expr_calls env) l) [i]);
    [exact RD| | | |].
  - intros v. rewrite !in_app_iff. tauto.
  - apply (snoc_disjoint env); auto. intros k I. left. apply in_flat_map in I as (x & _ & I).
    eapply expr_calls_exits; eauto.
  - pose proof (apart_app _ _ _ AP) as (? & _). apply NoDup_apart in NV as (? & _). apply exprs_go; auto.
    eapply ready_less; [|exact RD]. intros v. rewrite !in_app_iff. tauto.
  - intros s1 _ _ _ R1. now apply thread_total.
Qed.

Lemma exprs_all e : expr_goes e.
Proof.
  induction e using texpr_induction; intros s env R NV NK AP RD.
  - simpl expr_vertices in *. simpl expr_calls in *. rewrite app_nil_r in *. simpl visit_expr.
    destruct (thread_total i s RD) as (s' & E & M & L). exists s'. split; [easy|]. split; [easy|congruence].
  - simpl expr_vertices in *. simpl expr_calls in *. simpl visit_expr.
    destruct (exprs_then l i s env) as (s1 & E1 & M1 & L1); auto.
    { now apply NoDup_apart in NK as (? & _). }
    { eapply ready_less; [|exact RD]. intros v. rewrite !in_app_iff. tauto. }
    destruct (visits visit_expr l s) as [sa|] eqn:EA; [|discriminate]. simpl in E1 |- *. rewrite E1. simpl.
    assert (FS : functions s1 = functions s) by apply M1.
    rewrite FS, (R n). destruct (lookup env n) as [[f outer]|] eqn:LK; simpl option_map.
    2:{ exists s1. split; [easy|]. split; [|congruence]. now rewrite app_nil_r. }
    cbv zeta beta iota. simpl fst.
    set (k := block_sentinel (fn_block f)) in *.
    pose proof (lookup_exit _ _ _ _ LK) as KE. fold k in KE.
    assert (kV : ~ In k (flat_map expr_vertices l ++ [i])) by (intros J; now apply (AP k J)).
    assert (kK : ~ In k (flat_map (expr_calls env) l)).
    { apply NoDup_apart in NK as (_ & _ & D). intros J. apply (D k J). now left. }
    destruct M1 as (ML & MF & MS).
    destruct (ML i L1) as (_ & Si).
    assert (Sk : successors (graph s1) k = []).
    { rewrite MF.
      - destruct RD as (_ & F). apply F. rewrite !in_app_iff. right. right. now left.
      - rewrite in_app_iff. tauto.
      - intros Q. destruct RD as (RL & _). destruct (RL k Q) as (N & _). apply N. rewrite !in_app_iff. right. right. now left. }
    unfold thread_to, link_last, set_successor, has_successor. rewrite L1, Si. simpl.
    eexists. split; [reflexivity|]. split; [|easy]. split; [|split; [|exact MS]]; simpl; unfold add_successor.
    + intros q [= <-]. split; [left; rewrite !in_app_iff; right; right; now left|].
      rewrite successors_app, Sk, successors_one. destruct (Nat.eqb_spec i k) as [E|]; [|easy].
      exfalso. apply kV. rewrite E. apply in_app_iff. right. now left.
    + intros v NI NL. rewrite !in_app_iff in NI. rewrite successors_app, successors_one.
      destruct (Nat.eqb_spec i v) as [->|]; [exfalso; apply NI; left; right; now left|]. rewrite app_nil_r.
      apply MF; [rewrite !in_app_iff; tauto|easy].
  - simpl expr_vertices in *. simpl expr_calls in *. simpl visit_expr.
    destruct (exprs_then l i s env) as (s1 & E1 & M1 & L1); auto. exists s1. split; [easy|]. split; [easy|congruence].
  - destruct (exprs_then [e1; e2] i s env) as (s1 & E1 & M1 & L1); auto.
    + simpl in *. now rewrite app_nil_r, <- app_assoc.
    + simpl in *. now rewrite app_nil_r.
    + simpl in *. now rewrite app_nil_r, <- app_assoc.
    + simpl in *. rewrite !app_nil_r, <- (app_assoc (expr_vertices e1)). exact RD.
    + exists s1. simpl in *. rewrite !app_nil_r in M1. rewrite <- (app_assoc (expr_vertices e1)) in M1. split; [|split; [easy|congruence]].
      destruct (visit_expr e1 s) as [sa|]; [|easy]. simpl. destruct (visit_expr e2 sa); easy.
  - destruct (exprs_then [e] i s env) as (s1 & E1 & M1 & L1); auto.
    + simpl in *. now rewrite app_nil_r.
    + simpl in *. now rewrite app_nil_r.
    + simpl in *. now rewrite app_nil_r.
    + simpl in *. rewrite !app_nil_r. exact RD.
    + exists s1. simpl in *. rewrite !app_nil_r in M1. split; [|split; [easy|congruence]].
      destruct (visit_expr e s) as [sa|]; easy.
Qed.

(** ** Statements *)

Definition clean (d : bool) (x : tstmt) : Prop := loops x = false /\ stray d x = false /\ late x = false.
Definition clean_list (d : bool) (l : list tstmt) : Prop :=
  existsb loops l = false /\ existsb (stray d) l = false /\ existsb late l = false.

Lemma clean_cons d x l : clean_list d (x :: l) -> clean d x /\ clean_list d l.
Proof.
  unfold clean, clean_list. simpl. rewrite !orb_false_iff. tauto.
Qed.

Definition stmt_goes (x : tstmt) : Prop :=
  match x with
  | Definition_ _ _ _ _ | Return _ _ => True
  | _ => forall s env d, clean d x -> rel (functions s) env ->
      NoDup (stmt_vertices x) -> NoDup (stmt_calls env x) -> apart env (stmt_vertices x) ->
      ready s (stmt_vertices x ++ stmt_calls env x) ->
      exists s', visit_stmt Others x s = Some s' /\ moved s s' (stmt_vertices x ++ stmt_calls env x) /\
        last_vertex s' <> None
  end.

Definition def_goes (x : tstmt) : Prop :=
  match x with
  | Definition_ i n a b => forall s env d u sc l0, clean d x -> functions s = u ++ [sc] -> rel (functions s) env ->
      last_vertex s = Some l0 -> ~ In l0 (stmt_vertices x) ->
      NoDup (stmt_vertices x) -> NoDup (stmt_calls env x) -> apart env (stmt_vertices x) ->
      free (graph s) (stmt_vertices x ++ stmt_calls env x) ->
      exists s', visit_stmt Definitions x s = Some s' /\ last_vertex s' = last_vertex s /\
        inside s' = inside s /\ (exists sc', functions s' = u ++ [sc']) /\
        rel (functions s') ({| fn_name := n; fn_id := i; fn_args := a; fn_block := b |} :: env) /\
        (forall v, ~ In v (inner x ++ stmt_calls env x) -> successors (graph s') v = successors (graph s) v)
  | _ => True
  end.

Lemma expr_moves e s env : rel (functions s) env ->
  NoDup (expr_vertices e) -> NoDup (expr_calls env e) -> apart env (expr_vertices e) ->
  ready s (expr_vertices e ++ expr_calls env e) ->
  exists s', visit_expr e s = Some s' /\ moved s s' (expr_vertices e ++ expr_calls env e).
Proof. intros. destruct (exprs_all e s env) as (s' & E & M & _); eauto. Qed.

Lemma return_goes i e s env K r : rel (functions s) env -> inside s = K :: r ->
  NoDup (stmt_vertices (Return i e)) -> NoDup (stmt_calls env (Return i e)) -> apart env (stmt_vertices (Return i e)) ->
  ready s (stmt_vertices (Return i e) ++ stmt_calls env (Return i e)) ->
  exists s', visit_stmt Others (Return i e) s = Some s' /\ last_vertex s' = Some i /\
    successors (graph s') i = [K] /\ stay s s' /\
    (forall v, ~ In v (stmt_vertices (Return i e) ++ stmt_calls env (Return i e)) -> last_vertex s <> Some v ->
       successors (graph s') v = successors (graph s) v).
Proof.
  intros R IN NV NK AP RD.
  assert (H : exists s1, then_ (match e with Some e => visit_expr e s | None => Some s end) (thread_to i) = Some s1 /\
     moved s s1 (stmt_vertices (Return i e) ++ stmt_calls env (Return i e)) /\ last_vertex s1 = Some i).
  { destruct e as [e|]; simpl stmt_vertices in *; simpl stmt_calls in *.
    - destruct (exprs_then [e] i s env) as (s1 & E1 & M1 & L1); auto.
      + constructor; [apply exprs_all|constructor].
      + simpl. now rewrite app_nil_r.
      + simpl. now rewrite app_nil_r.
      + simpl. now rewrite app_nil_r.
      + simpl. now rewrite !app_nil_r.
      + exists s1. simpl in E1, M1. rewrite !app_nil_r in M1. split; [|easy].
        destruct (visit_expr e s) as [sa|]; easy.
    - simpl. destruct (thread_total i s RD) as (s1 & E & M & L). now exists s1. }
  destruct H as (s1 & E1 & M1 & L1). destruct M1 as (ML & MF & FS & IS). destruct (ML i L1) as (_ & Si).
  simpl visit_stmt. destruct (match e with Some e => visit_expr e s | None => Some s end) as [sa|]; [|discriminate].
  simpl in E1 |- *. rewrite E1. simpl. rewrite IS, IN. unfold link_last, set_successor, has_successor.
  rewrite L1, Si. eexists. split; [reflexivity|]. split; [easy|]. simpl. unfold add_successor. split; [|split].
  - rewrite successors_app, Si, successors_one. now rewrite Nat.eqb_refl.
  - split; simpl; congruence.
  - intros v NI NL. rewrite successors_app, successors_one. destruct (Nat.eqb_spec i v) as [->|].
    + exfalso. apply NI. apply in_app_iff. left. destruct e; simpl; [apply in_app_iff; right|]; now left.
    + rewrite app_nil_r. now apply MF.
Qed.

Definition returned (k : nat) (l : list tstmt) (s : thread) : Prop :=
  exists q x, l = q ++ [x] /\ successors (graph s) (stmt_vertex x) = [k].
Definition starts (l : list tstmt) : Prop := match l with Definition_ _ _ _ _ :: _ => False | _ => True end.

Lemma other_calls_cons env x l : other_calls stmt_calls env (x :: l) =
  match x with Definition_ _ _ _ _ => [] | _ => stmt_calls env x end ++ other_calls stmt_calls env l.
Proof. reflexivity. Qed.

Lemma visit_statements_cons k x l s : visit_statements visit_stmt k (x :: l) s =
  match visit_stmt Others x s with
  | None => None
  | Some s =>
      match last_vertex s with
      | None => None
      | Some v =>
          match successors (graph s) v with
          | [] => visit_statements visit_stmt k l s
          | w :: _ => if w =? k then visit_statements visit_stmt k l (with_last None s) else None
          end
      end
  end.
Proof. reflexivity. Qed.

Definition is_definition (x : tstmt) : bool := match x with Definition_ _ _ _ _ => true | _ => false end.

Lemma stmt_goes_on x : stmt_goes x -> is_return x = false -> is_definition x = false ->
  forall s env d, clean d x -> rel (functions s) env ->
      NoDup (stmt_vertices x) -> NoDup (stmt_calls env x) -> apart env (stmt_vertices x) ->
      ready s (stmt_vertices x ++ stmt_calls env x) ->
      exists s', visit_stmt Others x s = Some s' /\ moved s s' (stmt_vertices x ++ stmt_calls env x) /\
        last_vertex s' <> None.
Proof. now destruct x. Qed.

Lemma other_parts x env : is_definition x = false -> other_part x = stmt_vertices x /\
  match x with Definition_ _ _ _ _ => [] | _ => stmt_calls env x end = stmt_calls env x.
Proof. now destruct x. Qed.

Lemma after_return_tail x l : after_return (x :: l) = false -> after_return l = false.
Proof. destruct x; try easy. now destruct l as [|[] l]. Qed.

Lemma statements_go k d l : Forall stmt_goes l -> forall s env p,
  clean_list d l -> after_return l = false -> (d = true -> exists r, inside s = k :: r) ->
  rel (functions s) env -> NoDup (flat_map other_part l) -> NoDup (other_calls stmt_calls env l) ->
  apart env (flat_map other_part l) ->
  (last_vertex s = None -> starts l /\ returned k p s) ->
  ready s (flat_map other_part l ++ other_calls stmt_calls env l) ->
  exists s', visit_statements visit_stmt k l s = Some s' /\
    moved s s' (flat_map other_part l ++ other_calls stmt_calls env l) /\
    (last_vertex s' = None -> returned k (p ++ l) s').
Proof.
  induction 1 as [|x l HX HL IH]; intros s env p CL AR IN R NV NK AP LN RD.
  - exists s. split; [easy|]. split; [now apply moved_refl|]. rewrite app_nil_r. intros Q. now apply LN.
  - apply clean_cons in CL as (CX & CL).
    assert (PL : p ++ x :: l = (p ++ [x]) ++ l) by now rewrite <- app_assoc.
    pose proof (after_return_tail _ _ AR) as AR'.
    destruct (is_definition x) eqn:ID.
    + (* a definition *)
      destruct x as [| | | | |i n a b]; try discriminate ID.
      destruct (last_vertex s) as [l0|] eqn:L0; [|now destruct (LN eq_refl)].
      assert (S0 : successors (graph s) l0 = []) by (destruct RD as (RL & _); now apply RL).
      rewrite visit_statements_cons. simpl visit_stmt. cbv iota beta. rewrite L0, S0. rewrite PL.
      apply IH; auto. congruence.
    + rewrite other_calls_cons in *. simpl flat_map in *.
      destruct (other_parts x env ID) as (Q1 & Q2). rewrite Q1, Q2 in *. clear Q1 Q2.
      assert (DI : disjoint (stmt_vertices x ++ stmt_calls env x)
                (flat_map other_part l ++ other_calls stmt_calls env l)).
      { apply (areas_disjoint env); auto; [|apply other_calls_fit, all_fit].
        intros q J. destruct (stmt_calls_fit x env q J); auto. right. now apply inner_vertices. }
      pose proof NV as NV'. pose proof NK as NK'. pose proof AP as AP'.
      apply NoDup_apart in NV' as (NVx & NVl & _), NK' as (NKx & NKl & _). apply apart_app in AP' as (APx & APl).
      assert (RDx : ready s (stmt_vertices x ++ stmt_calls env x)).
      { eapply ready_less; [|exact RD]. intros v. rewrite !in_app_iff. tauto. }
      rewrite visit_statements_cons.
      destruct (is_return x) eqn:IR.
      * destruct x as [| |i e| | |]; try discriminate IR.
        assert (d = true) as -> by (destruct CX as (_ & CX & _); simpl in CX; now destruct d).
        destruct (IN eq_refl) as (r & IN').
        destruct (return_goes i e s env k r) as (s1 & E1 & L1 & S1 & ST & MF); auto.
        rewrite E1, L1, S1, Nat.eqb_refl.
        assert (M1 : moved s (with_last None s1) (stmt_vertices (Return i e) ++ stmt_calls env (Return i e))).
        { split; [discriminate|]. split; [exact MF|exact ST]. }
        destruct (IH (with_last None s1) env (p ++ [Return i e])) as (s' & E' & M' & H'); auto.
        -- intros _. exists r. simpl. now rewrite (proj2 ST).
        -- simpl. now rewrite (proj1 ST).
        -- intros _. split; [simpl in AR; now destruct l as [|[] l]|]. exists p, (Return i e). split; [easy|]. exact S1.
        -- eapply ready_after; [exact RD| |exact DI|exact M1]. intros v. rewrite !in_app_iff. tauto.
        -- exists s'. split; [easy|]. rewrite PL. split; [|easy].
           eapply moved_more; [|eapply moved_trans; eauto]. intros v. rewrite !in_app_iff. tauto.
      * destruct (stmt_goes_on x HX IR ID s env d) as (s1 & E1 & M1 & L1); auto. rewrite E1.
        destruct (last_vertex s1) as [l1|] eqn:EL; [|easy].
        assert (S1 : successors (graph s1) l1 = []) by (destruct M1 as (ML & _); now apply ML).
        rewrite S1.
        destruct (IH s1 env (p ++ [x])) as (s' & E' & M' & H'); auto.
        -- intros Q. destruct (IN Q) as (r & IN'). exists r. now rewrite (proj2 (proj2 (proj2 M1))).
        -- now rewrite (proj1 (proj2 (proj2 M1))).
        -- congruence.
        -- eapply ready_after; [exact RD| |exact DI|exact M1]. intros v. rewrite !in_app_iff. tauto.
        -- exists s'. split; [easy|]. rewrite PL. split; [|easy].
           eapply moved_more; [|eapply moved_trans; eauto]. intros v. rewrite !in_app_iff. tauto.
Qed.

Lemma visits_cons {X S} (f : X -> S -> option S) x l s :
  visits f (x :: l) s = match f x s with Some s' => visits f l s' | None => None end.
Proof. reflexivity. Qed.

Lemma definitions_go l : Forall def_goes l -> forall s env d u sc l0,
  clean_list d l -> functions s = u ++ [sc] -> rel (functions s) env -> last_vertex s = Some l0 ->
  ~ In l0 (flat_map definition_part l) ->
  NoDup (flat_map definition_part l) -> NoDup (definition_calls stmt_calls env l) ->
  apart env (flat_map definition_part l) ->
  free (graph s) (flat_map definition_part l ++ definition_calls stmt_calls env l) ->
  exists s', visits (visit_stmt Definitions) l s = Some s' /\ last_vertex s' = last_vertex s /\
    inside s' = inside s /\ (exists sc', functions s' = u ++ [sc']) /\
    rel (functions s') (known l env) /\
    (forall v, ~ In v (flat_map def_inner l ++ definition_calls stmt_calls env l) ->
       successors (graph s') v = successors (graph s) v).
Proof.
  induction 1 as [|x l HX HL IH]; intros s env d u sc l0 CL FU R L NL NV NK AP FR.
  - exists s. repeat split; auto. eauto.
  - apply clean_cons in CL as (CX & CL). rewrite visits_cons.
    destruct x as [e|i t e|i e|i q c t f|i c t f|i n a b];
      try (simpl visit_stmt; cbv iota beta; eapply (IH s env d u sc l0); eauto; fail).
    + destruct CX as (CX & _). discriminate CX.
    + set (x := Definition_ i n a b) in *. simpl known.
      change (flat_map definition_part (x :: l)) with (stmt_vertices x ++ flat_map definition_part l) in *.
      change (definition_calls stmt_calls env (x :: l)) with (stmt_calls env x ++ definition_calls stmt_calls
        ({| fn_name := n; fn_id := i; fn_args := a; fn_block := b |} :: env) l) in *.
      set (env' := {| fn_name := n; fn_id := i; fn_args := a; fn_block := b |} :: env) in *.
      change (flat_map def_inner (x :: l)) with (def_inner x ++ flat_map def_inner l).
      pose proof NV as NV'. pose proof NK as NK'. pose proof AP as AP'.
      apply NoDup_apart in NV' as (NVx & NVl & DV), NK' as (NKx & NKl & DK). apply apart_app in AP' as (APx & APl).
      destruct (HX s env d u sc l0) as (s1 & E1 & L1 & I1 & (sc1 & F1) & R1 & M1); auto.
      { intros J. apply NL, in_app_iff. now left. }
      { intros v J. apply FR. rewrite !in_app_iff in *. tauto. }
      fold env' in R1.
      assert (kx : In (block_sentinel b) (stmt_vertices x)).
      { unfold x. rewrite definition_vertices. right. apply in_app_iff. right. right. apply in_app_iff. right. now left. }
      assert (ki : ~ In (block_sentinel b) (def_inner x)).
      { unfold x in NVx. rewrite definition_vertices in NVx. unfold block_vertices, block_vertices_ in NVx.
        rewrite app_comm_cons, (app_comm_cons _ [block_sentinel b]), app_assoc in NVx.
        apply NoDup_apart in NVx as (_ & _ & D). intros J. apply (D (block_sentinel b)); [exact J|now left]. }
      destruct (IH s1 env' d u sc1 l0) as (s' & E' & L' & I' & F' & R' & M'); auto.
      * congruence.
      * intros J. apply NL, in_app_iff. now right.
      * intros v J. intros [<-|Q]; [|now apply (APl v J)]. exact (DV _ kx J).
      * intros v J. rewrite M1; [apply FR; rewrite !in_app_iff in *; tauto|].
        change (inner x) with (def_inner x). rewrite in_app_iff. intros [Q|Q].
        -- apply in_app_iff in J as [J|J]; [apply (DV v); [now apply (inner_vertices x)|easy]|].
           apply definition_calls_fit in J as [[<-|J]|J]; [easy| | |apply all_fit].
           ++ apply (APx v); [now apply (inner_vertices x)|easy].
           ++ apply (DV v); [now apply (inner_vertices x)|easy].
        -- apply in_app_iff in J as [J|J]; [|now apply (DK v)].
           destruct (stmt_calls_fit x env v Q) as [Q'|Q']; [now apply (APl v)|].
           apply (DV v); [now apply (inner_vertices x)|easy].
      * exists s'. rewrite E1. split; [easy|]. split; [congruence|]. split; [congruence|]. split; [easy|].
        split; [easy|]. intros v NI. rewrite !in_app_iff in NI. rewrite M', M1; rewrite ?in_app_iff; auto;
        change (inner x) with (def_inner x); tauto.
Qed.

Definition def_exit (x : tstmt) : list nat :=
  match x with Definition_ _ _ _ b => [block_sentinel b] | _ => [] end.

Lemma definition_parts l :
  Permutation (flat_map definition_part l) (flat_map def_inner l ++ flat_map def_exit l).
Proof.
  induction l as [|x l IH]; [constructor|]. destruct x as [| | | | |i n a b]; try exact IH.
  rewrite parts_cons, definition_vertices.
  change (flat_map def_inner (Definition_ i n a b :: l)) with
    ((i :: a ++ block_id b :: flat_map stmt_vertices (block_statements b)) ++ flat_map def_inner l).
  change (flat_map def_exit (Definition_ i n a b :: l)) with ([block_sentinel b] ++ flat_map def_exit l).
  unfold block_vertices, block_vertices_.
  replace (i :: a ++ block_id b :: flat_map stmt_vertices (block_statements b) ++ [block_sentinel b]) with
    ((i :: a ++ block_id b :: flat_map stmt_vertices (block_statements b)) ++ [block_sentinel b]).
  2:{ simpl. now rewrite <- app_assoc. }
  rewrite <- !app_assoc. apply Permutation_app_head. rewrite IH.
  rewrite !app_assoc. apply Permutation_app_tail. apply Permutation_app_comm.
Qed.

Lemma known_def_exits l : forall env v,
  In v (env_exits (known l env)) -> In v (env_exits env) \/ In v (flat_map def_exit l).
Proof.
  induction l as [|x l IH]; intros env v I; [now left|].
  destruct x as [| | | | |i n a b]; try (simpl known in I; apply IH in I; exact I).
  simpl known in I. simpl. apply IH in I as [[<-|I]|I]; auto.
Qed.

Definition scope_goes (b : block tstmt) : Prop := forall d s env v,
  clean_list d (block_statements b) -> after_return (block_statements b) = false ->
  (d = true -> exists r, inside s = block_sentinel b :: r) -> rel (functions s) env ->
  last_vertex s = Some v -> ~ In v (block_vertices b ++ block_calls env b) ->
  NoDup (block_vertices b) -> NoDup (block_calls env b) -> apart env (block_vertices b) ->
  free (graph s) (block_vertices b ++ block_calls env b) ->
  exists s', visit_scope visit_stmt b s = Some s' /\ last_vertex s' = Some (block_sentinel b) /\
    successors (graph s') (block_sentinel b) = [] /\ stay s s' /\
    forall w, ~ In w ((block_id b :: flat_map stmt_vertices (block_statements b)) ++ block_calls env b) -> w <> v ->
      successors (graph s') w = successors (graph s) w.

Lemma scope_go i k l : Forall stmt_goes l -> Forall def_goes l -> scope_goes (Block i k l).
Proof.
  intros HS HD d s env v CL AR IN R L NV ND NK AP FR. simpl block_sentinel in *. simpl block_statements in *.
  simpl block_id. unfold block_calls, block_calls_ in *. simpl block_statements in *.
  set (D := flat_map definition_part l) in *. set (O := flat_map other_part l) in *.
  set (KD := definition_calls stmt_calls env l) in *.
  set (KO := other_calls stmt_calls (known l env) l) in *.
  assert (PV : Permutation (block_vertices (Block i k l)) (i :: D ++ O ++ [k])).
  { unfold block_vertices, block_vertices_. simpl. constructor. rewrite app_assoc. apply Permutation_app_tail.
    apply parts_permutation. }
  assert (IV : forall w, In w (block_vertices (Block i k l)) <-> w = i \/ In w D \/ In w O \/ w = k).
  { intros w. split; intros I.
    - eapply Permutation_in in I; [|exact PV]. destruct I as [<-|I]; [now left|]. rewrite !in_app_iff in I.
      destruct I as [I|[I|[<-|[]]]]; auto.
    - eapply Permutation_in; [symmetry; exact PV|]. destruct I as [->|I]; [now left|]. right. rewrite !in_app_iff.
      destruct I as [I|[I| ->]]; auto. right. right. now left. }
  pose proof (Permutation_NoDup PV ND) as NP.
  assert (iN : ~ In i (D ++ O ++ [k])) by now inversion NP.
  assert (NP' : NoDup (D ++ O ++ [k])) by now inversion NP.
  pose proof (NoDup_apart _ _ NP') as (NDD & NDO & DDO). pose proof (NoDup_apart _ _ NDO) as (NO & _ & DOk).
  pose proof (NoDup_apart _ _ NK) as (NKD & NKO & DK).
  assert (iD : ~ In i D) by (intros J; apply iN; rewrite in_app_iff; auto).
  assert (iO : ~ In i O) by (intros J; apply iN; rewrite !in_app_iff; auto).
  assert (kD : ~ In k D) by (intros J; apply (DDO k J); rewrite in_app_iff; right; now left).
  assert (kO : ~ In k O) by (intros J; apply (DOk k J); now left).
  assert (ik : i <> k) by (intros ->; apply iN; rewrite !in_app_iff; right; right; now left).
  assert (DO : forall w, In w D -> In w O -> False) by (intros w I J; apply (DDO w I); rewrite in_app_iff; auto).
  pose proof (Permutation_NoDup (definition_parts l) NDD) as NX.
  pose proof (NoDup_apart _ _ NX) as (_ & _ & DX).
  assert (inD : forall w, In w (flat_map def_inner l) -> In w D).
  { intros w I. eapply Permutation_in; [symmetry; apply definition_parts|]. apply in_app_iff. now left. }
  assert (exD : forall w, In w (flat_map def_exit l) -> In w D).
  { intros w I. eapply Permutation_in; [symmetry; apply definition_parts|]. apply in_app_iff. now right. }
  assert (KDf : forall w, In w KD -> In w (env_exits env) \/ In w D) by (apply definition_calls_fit, all_fit).
  assert (KOf : forall w, In w KO -> In w (env_exits env) \/ In w (flat_map def_exit l) \/ In w O).
  { intros w I. apply other_calls_fit in I as [I|I]; [|auto|apply all_fit]. apply known_def_exits in I as [I|I]; auto. }
  assert (APx : forall w, w = i \/ In w D \/ In w O \/ w = k -> ~ In w (env_exits env)).
  { intros w I. apply AP. now apply IV. }
  assert (FRx : forall w, w = i \/ In w D \/ In w O \/ w = k -> successors (graph s) w = [] /\ w <> v).
  { intros w I. apply IV in I. split; [apply FR, in_app_iff; now left|].
    intros ->. apply NV, in_app_iff. now left. }
  assert (FRk : forall w, In w KD \/ In w KO -> successors (graph s) w = [] /\ w <> v).
  { intros w I. split; [apply FR; rewrite !in_app_iff; tauto|]. intros ->. apply NV. rewrite !in_app_iff. tauto. }
  unfold visit_scope. rewrite L.
  set (s0' := with_last _ (with_functions _ s)).
  destruct (definitions_go l HD s0' env d (functions s) [] i) as (s0 & E0 & L0 & I0 & (sc & F0) & R0 & M0); auto.
  { unfold s0'. simpl. now apply rel_push. }
  { intros w I. now apply APx; auto. }
  { intros w I. simpl. apply in_app_iff in I as [I|I]; [apply FRx|apply FRk]; auto. }
  rewrite E0. cbn [then_]. change (graph s0') with (graph s) in M0. fold D KD in M0.
  set (s0'' := with_last (Some i) _).
  assert (G0 : forall w, w <> v -> successors (graph s0'') w = successors (graph s0) w).
  { intros w NE. simpl. unfold add_successor. rewrite successors_app, successors_one.
    destruct (Nat.eqb_spec v w) as [->|]; [easy|apply app_nil_r]. }
  assert (Si : successors (graph s0'') i = []).
  { destruct (FRx i) as (Q & NE); auto. rewrite G0, M0; auto. rewrite in_app_iff. intros [J|J].
    - now apply iD, inD. - destruct (KDf i J) as [J'|J']; [now apply (APx i); auto|easy]. }
  destruct (statements_go k d l HS s0'' (known l env) []) as (s1 & E1 & M1 & H1); auto.
  { intros Q. simpl. rewrite I0. now apply IN. }
  { intros w J K. apply known_exits in K as [K|K]; [now apply (APx w); auto|]. now apply (DO w). }
  { discriminate. }
  { fold O KO. split.
    - intros q [= <-]. split; [|exact Si]. rewrite in_app_iff. intros [J|J]; [easy|].
      destruct (KOf i J) as [J'|[J'|J']]; [now apply (APx i); auto| |easy]. apply iD. now apply exD.
    - intros w I. apply in_app_iff in I as [I|I].
      + destruct (FRx w) as (Q & NE); auto. rewrite G0, M0; auto. rewrite in_app_iff. intros [J|J].
        * now apply (DO w); auto.
        * destruct (KDf w J) as [J'|J']; [now apply (APx w); auto|now apply (DO w)].
      + destruct (FRk w) as (Q & NE); auto. rewrite G0, M0; auto. rewrite in_app_iff. intros [J|J]; [|now apply (DK w)].
        destruct (KOf w I) as [J'|[J'|J']]; [now apply (APx w); auto|now apply (DX w)|now apply (DO w); auto]. }
  rewrite E1. cbn [then_]. fold O KO in M1. destruct M1 as (ML & MF & MS1 & MS2).
  assert (HF : exists s2, finish k l s1 = Some s2 /\ last_vertex s2 = Some k /\ stay s1 s2 /\
     forall w, ~ In w (i :: O ++ KO) -> successors (graph s2) w = successors (graph s1) w).
  { unfold finish. destruct (last_vertex s1) as [z|] eqn:LZ.
    - destruct (ML z eq_refl) as (IZ & SZ). unfold visit_sentinel, link_last, set_successor, has_successor.
      rewrite LZ, SZ. eexists. split; [reflexivity|]. split; [easy|]. split; [easy|]. intros w NI. simpl.
      unfold add_successor. rewrite successors_app, successors_one. destruct (Nat.eqb_spec z w) as [->|]; [|apply app_nil_r].
      exfalso. apply NI. destruct IZ as [IZ|[= <-]]; [now right|now left].
    - destruct (H1 eq_refl) as (q & x & EQ & SX). simpl in EQ. rewrite EQ, rev_app_distr. simpl.
      rewrite SX, Nat.eqb_refl. eexists. split; [reflexivity|]. easy. }
  destruct HF as (s2 & E2 & L2 & (ST1 & ST2) & M2). rewrite E2. cbn [then_].
  assert (FU : functions s2 = functions s ++ [sc]) by (rewrite ST1, MS1; exact F0).
  rewrite (pop_outer _ _ _ FU). eexists. split; [reflexivity|]. simpl.
  assert (FRAME : forall w, w <> i -> ~ In w O -> ~ In w KO -> ~ In w (flat_map def_inner l) -> ~ In w KD -> w <> v ->
            successors (graph s2) w = successors (graph s) w).
  { intros w N1 N2 N3 N4 N5 N6. rewrite M2, MF, G0, M0; auto.
    - rewrite in_app_iff. tauto.
    - rewrite in_app_iff. tauto.
    - simpl. congruence.
    - intros [J|J]; [congruence|]. apply in_app_iff in J. tauto. }
  split; [easy|]. split; [|split].
  - destruct (FRx k) as (Q & NE); auto. rewrite FRAME; auto.
    + intros J. destruct (KOf k J) as [J'|[J'|J']]; [now apply (APx k); auto|now apply kD, exD|easy].
    + intros J. destruct (KDf k J) as [J'|J']; [now apply (APx k); auto|easy].
  - split; simpl; [easy|]. rewrite ST2, MS2. exact I0.
  - intros w NI NE. rewrite !in_app_iff in NI. simpl in NI. apply FRAME; try tauto.
    + intros ->. tauto.
    + intros J. apply NI. right. left. now apply other_part_in.
    + intros J. apply NI. right. left. apply definition_part_in. now apply inD.
Qed.

Lemma args_go a : forall s, NoDup a -> ready s a -> exists s', visits thread_to a s = Some s' /\ moved s s' a.
Proof.
  induction a as [|x a IH]; intros s N RD.
  - exists s. split; [easy|]. now apply moved_refl.
  - destruct (then_total (thread_to x) (visits thread_to a) s [x] a (x :: a) (fun _ => True) RD) as (s2 & E & M & _).
    + intros v. simpl. tauto.
    + intros v [<-|[]] J. now inversion N.
    + destruct (thread_total x s) as (s1 & E & M & _); [|eauto]. eapply ready_less; [|exact RD]. intros v [<-|[]]. now left.
    + intros s1 _ _ _ R1. destruct (IH s1) as (s2 & E & M); [now inversion N|easy|]. eauto.
    + exists s2. now split.
Qed.

Lemma definition_goes_on i n a b : scope_goes b -> def_goes (Definition_ i n a b).
Proof.
  intros HB s env d u sc l0 (C1 & C2 & C3) FU R L NL NV NK AP FR.
  rewrite definition_vertices in *. change (stmt_calls env (Definition_ i n a b)) with (block_calls env b) in *.
  simpl in C1, C2, C3. apply orb_false_iff in C3 as (C3 & C4).
  set (k := block_sentinel b) in *.
  assert (iN : ~ In i (a ++ block_vertices b)) by now inversion NV.
  assert (NV' : NoDup (a ++ block_vertices b)) by now inversion NV.
  pose proof (NoDup_apart _ _ NV') as (Na & Nb & Dab).
  assert (fit : forall q, In q (block_calls env b) -> In q (env_exits env) \/ In q (flat_map stmt_vertices (block_statements b))).
  { intros q. apply block_calls_fit, all_fit. }
  assert (APi : ~ In i (env_exits env)) by (apply AP; now left).
  assert (APa : forall v, In v a -> ~ In v (env_exits env)) by (intros v J; apply AP; right; apply in_app_iff; now left).
  assert (APb : apart env (block_vertices b)) by (intros v J; apply AP; right; apply in_app_iff; now right).
  assert (iC : ~ In i (block_calls env b)).
  { intros J. destruct (fit i J) as [J'|J']; [easy|]. apply iN, in_app_iff. right. now apply block_inner. }
  assert (aC : forall v, In v a -> ~ In v (block_calls env b)).
  { intros v I J. destruct (fit v J) as [J'|J']; [now apply (APa v)|]. apply (Dab v I). now apply block_inner. }
  set (sa := with_last (Some i) (with_inside (k :: inside s) s)).
  destruct (args_go a sa) as (s0 & E0 & M0); auto.
  { split.
    - intros q [= <-]. split; [|apply FR, in_app_iff; left; now left]. intros J. apply iN, in_app_iff. now left.
    - intros v I. apply FR, in_app_iff. left. right. apply in_app_iff. now left. }
  destruct (visits_thread_last _ _ _ i E0 eq_refl) as (w & LW & WI).
  destruct M0 as (_ & MF & MS1 & MS2).
  assert (wI : w = i \/ In w a) by exact WI.
  destruct (HB true s0 env w) as (s1 & E1 & L1 & S1 & (ST1 & ST2) & M1); auto.
  { split; [easy|]. now split. }
  { intros _. exists (inside s). exact MS2. }
  { now rewrite MS1. }
  { rewrite in_app_iff. intros [J|J].
    - destruct wI as [->|wI]; [apply iN, in_app_iff; now right|now apply (Dab w)].
    - destruct wI as [->|wI]; [easy|now apply (aC w)]. }
  { intros v I. rewrite MF.
    - apply FR. apply in_app_iff in I as [I|I]; apply in_app_iff; [left; right; apply in_app_iff; now right|now right].
    - intros J. apply in_app_iff in I as [I|I]; [now apply (Dab v)|now apply (aC v)].
    - simpl. intros [= <-]. apply in_app_iff in I as [I|I]; [|easy]. apply iN, in_app_iff. now right. }
  fold k in L1, S1.
  simpl visit_stmt. cbv zeta. fold k. fold sa. rewrite E0. cbn [then_]. rewrite E1. cbn [then_].
  unfold at_vertex. rewrite L1, Nat.eqb_refl. cbn [then_].
  assert (F1 : functions s1 = u ++ [sc]) by (rewrite ST1, MS1; exact FU).
  assert (EA : exists sc', add_value (functions s1) n (i, k) = Some (u ++ [sc'])).
  { rewrite F1. unfold add_value. rewrite on_back_spec. simpl. eauto. }
  destruct EA as (sc' & EA). rewrite EA, L.
  assert (l0k : (l0 =? k) = false).
  { apply Nat.eqb_neq. intros ->. apply NL. right. apply in_app_iff. right. right. apply in_app_iff. right. now left. }
  rewrite l0k. unfold has_successor. rewrite S1. eexists. split; [reflexivity|]. split; [easy|]. split.
  { simpl. rewrite ST2, MS2. easy. }
  split; [simpl; eauto|]. split.
  { simpl. eapply rel_add; [|exact EA]. rewrite F1, <- FU. exact R. }
  intros v NI. simpl graph. unfold inner, def_inner in NI. rewrite in_app_iff in NI. simpl in NI. rewrite in_app_iff in NI. simpl in NI.
  rewrite M1, MF.
  - easy.
  - tauto.
  - simpl. intros [= <-]. tauto.
  - rewrite in_app_iff. simpl. tauto.
  - intros ->. destruct wI as [->|wI]; tauto.
Qed.

Lemma area_in (VC T F KC KT KF : list nat) i k v : In v ((VC ++ i :: T ++ F ++ [k]) ++ KC ++ KT ++ KF) <->
  In v VC \/ v = i \/ In v T \/ In v F \/ v = k \/ In v KC \/ In v KT \/ In v KF.
Proof.
  rewrite !in_app_iff. simpl. rewrite !in_app_iff. simpl.
  assert (E1 : i = v <-> v = i) by (split; congruence). assert (E2 : k = v <-> v = k) by (split; congruence). tauto.
Qed.
Lemma start_in (VC KC : list nat) i v : In v ((VC ++ [i]) ++ KC) <-> In v VC \/ v = i \/ In v KC.
Proof.
  rewrite !in_app_iff. simpl. assert (E1 : i = v <-> v = i) by (split; congruence). tauto.
Qed.

Lemma choice_goes i k c t f : scope_goes t -> scope_goes f -> stmt_goes (Choice i k c t f).
Proof.
  intros HT HF s env d (C1 & C2 & C3) R NV NK AP RD. rewrite choice_vertices in *.
  change (stmt_calls env (Choice i k c t f)) with (expr_calls env c ++ block_calls env t ++ block_calls env f) in *.
  simpl in C1, C2, C3. apply orb_false_iff in C1 as (C1t & C1f), C2 as (C2t & C2f), C3 as (C3t & C3f).
  apply orb_false_iff in C3t as (C3t & C4t), C3f as (C3f & C4f).
  set (VC := expr_vertices c) in *. set (T := block_vertices t) in *. set (F := block_vertices f) in *.
  set (KC := expr_calls env c) in *. set (KT := block_calls env t) in *. set (KF := block_calls env f) in *.
  pose proof (NoDup_apart _ _ NV) as (NC & NV1 & DC). pose proof (NoDup_apart _ _ NK) as (NKC & NK1 & DKC).
  assert (iN : ~ In i (T ++ F ++ [k])) by now inversion NV1.
  assert (NV2 : NoDup (T ++ F ++ [k])) by now inversion NV1.
  pose proof (NoDup_apart _ _ NV2) as (NT & NV3 & DT). pose proof (NoDup_apart _ _ NV3) as (NF & _ & DF).
  pose proof (NoDup_apart _ _ NK1) as (NKT & NKF & DKT).
  assert (fitC : forall q, In q KC -> In q (env_exits env)) by (intros q; apply expr_calls_exits).
  assert (fitT : forall q, In q KT -> In q (env_exits env) \/ In q (flat_map stmt_vertices (block_statements t)))
    by (intros q; apply block_calls_fit, all_fit).
  assert (fitF : forall q, In q KF -> In q (env_exits env) \/ In q (flat_map stmt_vertices (block_statements f)))
    by (intros q; apply block_calls_fit, all_fit).
  assert (APx : forall v, In v VC \/ v = i \/ In v T \/ In v F \/ v = k -> ~ In v (env_exits env)).
  { intros v I. apply AP. apply in_app_iff. destruct I as [I|[->|I]]; [now left|right; now left|right; right].
    rewrite !in_app_iff. destruct I as [I|[I| ->]]; auto. right. right. now left. }
  assert (inT : forall q, In q (flat_map stmt_vertices (block_statements t)) -> In q T) by (intros; now apply block_inner).
  assert (inF : forall q, In q (flat_map stmt_vertices (block_statements f)) -> In q F) by (intros; now apply block_inner).
  assert (kT : In (block_sentinel t) T) by (right; apply in_app_iff; right; now left).
  assert (kF : In (block_sentinel f) F) by (right; apply in_app_iff; right; now left).
  assert (dTF : forall v, In v T -> In v F -> False) by (intros v I J; apply (DT v I), in_app_iff; now left).
  assert (dTk : ~ In k T) by (intros I; apply (DT k I), in_app_iff; right; now left).
  assert (dFk : ~ In k F) by (intros I; apply (DF k I); now left).
  assert (iT : ~ In i T) by (intros I; apply iN, in_app_iff; now left).
  assert (iF : ~ In i F) by (intros I; apply iN; rewrite !in_app_iff; auto).
  assert (ik : i <> k) by (intros ->; apply iN; rewrite !in_app_iff; right; right; now left).
  assert (dC : forall v, In v VC -> v <> i /\ ~ In v T /\ ~ In v F /\ v <> k).
  { intros v I. split; [intros ->; apply (DC i I); now left|].
    split; [intros J; apply (DC v I); right; apply in_app_iff; now left|].
    split; [intros J; apply (DC v I); right; rewrite !in_app_iff; auto|].
    intros ->. apply (DC k I). right. rewrite !in_app_iff. right. right. now left. }
  assert (DIS : forall v, In v ((VC ++ [i]) ++ KC) -> ~ In v T /\ ~ In v F /\ v <> k /\ ~ In v KT /\ ~ In v KF).
  { intros v I. rewrite start_in in I. destruct I as [I|[->|I]].
    - destruct (dC v I) as (Q1 & Q2 & Q3 & Q4). split; [easy|]. split; [easy|]. split; [easy|]. split; intros J.
      + destruct (fitT v J); [now apply (APx v); auto|auto].
      + destruct (fitF v J); [now apply (APx v); auto|auto].
    - split; [easy|]. split; [easy|]. split; [easy|]. split; intros J.
      + destruct (fitT i J); [now apply (APx i); auto|auto].
      + destruct (fitF i J); [now apply (APx i); auto|auto].
    - pose proof (fitC v I) as X.
      split; [intros J; now apply (APx v); auto|]. split; [intros J; now apply (APx v); auto 6|].
      split; [intros ->; apply (APx k); auto 6|].
      split; intros J; apply (DKC v I); apply in_app_iff; auto. }
  assert (kK : ~ In k KC /\ ~ In k KT /\ ~ In k KF).
  { split; [intros J; apply (APx k); auto 6|]. split; intros J.
    - destruct (fitT k J); [apply (APx k); auto 6|auto]. - destruct (fitF k J); [apply (APx k); auto 6|auto]. }
  assert (KTF : forall v, In v KT -> ~ In v F) by (intros v I J; destruct (fitT v I); [now apply (APx v); auto 6|eauto]).
  assert (KFT : forall v, In v KF -> ~ In v T) by (intros v I J; destruct (fitF v I); [now apply (APx v); auto 6|eauto]).
  (* the condition *)
  destruct (exprs_all c s env) as (s0 & E0 & M0 & L0); auto.
  { intros v I. now apply APx; auto. }
  { eapply ready_less; [|exact RD]. intros v. rewrite area_in, in_app_iff. fold VC KC. tauto. }
  destruct (exprs_then [c] i s env) as (s1 & E1 & M1 & L1); auto.
  { constructor; [apply exprs_all|constructor]. }
  { simpl. rewrite app_nil_r. apply NoDup_join; auto; [repeat constructor; easy|]. intros v I [<-|[]].
    now destruct (dC i I). }
  { simpl. now rewrite app_nil_r. }
  { simpl. rewrite app_nil_r. intros v I. apply APx. apply in_app_iff in I as [I|[<-|[]]]; auto. }
  { simpl. rewrite !app_nil_r. eapply ready_less; [|exact RD]. intros v. rewrite area_in, start_in. fold VC KC. tauto. }
  simpl in E1. rewrite E0 in E1. cbn [then_] in E1. simpl in M1. rewrite !app_nil_r in M1. fold VC KC in M1.
  apply thread_to_some in E1 as [(Q & _)|(z & LZ & SZ & E1)]; [congruence|].
  simpl visit_stmt. rewrite E0. cbn [then_].
  unfold link_last at 1, set_successor, has_successor, add_successor. rewrite LZ, SZ. cbn [then_].
  rewrite <- E1. destruct M1 as (ML & MF & MS1 & MS2). destruct (ML i L1) as (_ & Si).
  assert (RDf : forall v, In v T \/ In v F \/ v = k \/ In v KT \/ In v KF ->
            successors (graph s1) v = [] /\ last_vertex s <> Some v).
  { intros v I.
    assert (I' : In v ((VC ++ i :: T ++ F ++ [k]) ++ KC ++ KT ++ KF)).
    { apply area_in. tauto. }
    assert (NL : last_vertex s <> Some v) by (intros Q; destruct RD as (RL & _); destruct (RL v Q); auto).
    split; [|easy]. rewrite MF; [now apply RD| |easy]. intros J. destruct (DIS v J) as (X1 & X2 & X3 & X4 & X5).
    destruct I as [I|[I|[->|[I|I]]]]; auto. }
  assert (iDIS : In i ((VC ++ [i]) ++ KC)) by (apply start_in; auto).
  destruct (DIS i iDIS) as (_ & _ & _ & iKT & iKF).
  (* the true scope *)
  destruct (HT false s1 env i) as (s2 & E2 & L2 & S2 & (ST1 & ST2) & M2); auto.
  { split; [easy|]. now split. }
  { discriminate. }
  { now rewrite MS1. }
  { rewrite in_app_iff. tauto. }
  { intros v I. apply APx. auto. }
  { intros v I. apply RDf. apply in_app_iff in I as [I|I]; auto 6. }
  rewrite E2. cbn [then_]. unfold at_vertex at 1. rewrite L2, Nat.eqb_refl. cbn [then_].
  unfold link_last at 1, set_successor, has_successor, add_successor. rewrite L2, S2. cbn [then_].
  set (s3 := with_graph (graph s2 ++ [(block_sentinel t, k)]) s2).
  fold KT in M2.
  assert (M3 : forall v, ~ In v T -> ~ In v KT -> v <> i -> successors (graph s3) v = successors (graph s1) v).
  { intros v N1 N2 N3. simpl. rewrite successors_app, successors_one.
    destruct (Nat.eqb_spec (block_sentinel t) v) as [<-|]; [easy|]. rewrite app_nil_r. apply M2; [|easy].
    rewrite in_app_iff. intros [[<-|J]|J]; auto. apply N1. now left. }
  assert (FRAME : forall g, (forall v, ~ In v T -> ~ In v F -> ~ In v KT -> ~ In v KF -> v <> i -> successors g v = successors (graph s1) v) ->
     forall fs ins, fs = functions s -> ins = inside s ->
     moved s {| graph := g; last_vertex := Some k; functions := fs; inside := ins |}
       ((VC ++ i :: T ++ F ++ [k]) ++ KC ++ KT ++ KF)).
  { intros g H fs ins -> ->. split; [|split; [|easy]]; cbn [last_vertex graph].
    - intros q [= <-]. split; [left; apply (area_in VC T F KC KT KF i k k); auto 8|].
      rewrite H; auto; try tauto. apply RDf. auto.
    - intros v NI NL. rewrite area_in in NI.
      rewrite H; try tauto. apply MF; [|easy]. rewrite start_in. tauto. }
  destruct f as [fi fk fl]. destruct fl as [|x fl].
  - cbn [then_]. eexists. split; [reflexivity|]. split; [|easy]. apply FRAME.
    + intros v N1 _ N3 _ N5. now apply M3.
    + simpl. rewrite ST1. exact MS1.
    + simpl. rewrite ST2. exact MS2.
  - set (fb := Block fi fk (x :: fl)) in *.
    destruct (HF false (with_last (Some i) s3) env i) as (s4 & E4 & L4 & S4 & (ST3 & ST4) & M4); auto.
    { split; [easy|]. now split. }
    { discriminate. }
    { simpl. rewrite ST1, MS1. exact R. }
    { rewrite in_app_iff. tauto. }
    { intros v I. apply APx. auto 6. }
    { intros v I. simpl graph. apply in_app_iff in I as [I|I]; rewrite M3; try (apply RDf; auto 6).
      - intros J. now apply (dTF v).
      - intros J. now apply (KTF v).
      - intros ->. now apply iF.
      - now apply KFT.
      - intros J. now apply (DKT v).
      - intros ->. now apply iKF. }
    rewrite E4. cbn [then_]. unfold at_vertex. change (block_sentinel fb) with fk in *. rewrite L4, Nat.eqb_refl. cbn [then_].
    unfold link_last, set_successor, has_successor, add_successor. rewrite L4, S4. cbn [then_].
    eexists. split; [reflexivity|]. split; [|easy]. apply FRAME.
    + intros v N1 N2 N3 N4 N5. simpl. rewrite successors_app, successors_one.
      destruct (Nat.eqb_spec fk v) as [<-|]; [easy|]. rewrite app_nil_r. rewrite M4; [simpl; now apply M3| |easy].
      rewrite in_app_iff. intros [[<-|J]|J]; auto. apply N2. now left.
    + simpl. rewrite ST3. simpl. rewrite ST1. exact MS1.
    + simpl. rewrite ST4. simpl. rewrite ST2. exact MS2.
Qed.

Lemma thread_last i s s' : thread_to i s = Some s' -> last_vertex s' = Some i.
Proof. intros E. apply thread_to_some in E as [(_ & ->)|(? & _ & _ & ->)]; easy. Qed.

Lemma expr_last e s s' : visit_expr e s = Some s' -> last_vertex s' <> None.
Proof.
  destruct e; simpl; intros E; unthen; try (apply thread_last in E; congruence).
  apply thread_last in E1. destruct (value (functions s1) name) as [[d k]|]; [|injection E as <-; congruence].
  unthen. injection E as <-. easy.
Qed.

Lemma all_go x : stmt_goes x /\ def_goes x.
Proof.
  assert (HB : forall b : block tstmt, Forall (fun x => stmt_goes x /\ def_goes x) (block_statements b) -> scope_goes b).
  { intros [i k l] H. apply scope_go; eapply Forall_impl; [|exact H| |exact H]; intros y Q; apply Q. }
  induction x using tstmt_induction.
  - split; [|easy]. intros s env d _ R NV NK AP RD. now apply exprs_all.
  - split; [|easy]. intros s env d _ R NV NK AP RD.
    destruct (exprs_then [e; t] i s env) as (s1 & E1 & M1 & L1); auto.
    + repeat constructor; apply exprs_all.
    + simpl in *. now rewrite app_nil_r, <- app_assoc.
    + simpl in *. now rewrite app_nil_r.
    + simpl in *. now rewrite app_nil_r, <- app_assoc.
    + simpl in *. rewrite !app_nil_r, <- (app_assoc (expr_vertices e)). exact RD.
    + exists s1. simpl in *. rewrite !app_nil_r in M1. rewrite <- (app_assoc (expr_vertices e)) in M1.
      split; [|split; [easy|congruence]].
      destruct (visit_expr e s) as [sa|] eqn:EA; [|easy]. simpl in E1 |- *.
      destruct (visit_expr t sa) as [sb|] eqn:EB; [|easy]. simpl in E1 |- *.
      assert (LB : last_vertex sb <> None) by (eapply expr_last; exact EB).
      now destruct (last_vertex sb).
  - easy.
  - split; [|easy]. apply choice_goes; now apply HB.
  - split; [|easy]. intros s env d (C & _). discriminate C.
  - split; [easy|]. apply definition_goes_on. now apply HB.
Qed.

Lemma module_goes m : NoDup (module_vertices m) -> threadable m -> exists g, thread_module m [] = Some g.
Proof.
  destruct m as [i b]. intros ND (C1 & C2 & C3 & NK). simpl in C1, C2, C3, NK. apply orb_false_iff in C3 as (C3 & C4).
  simpl in ND. assert (iN : ~ In i (block_vertices b)) by now inversion ND.
  assert (HB : scope_goes b).
  { destruct b. apply scope_go; apply Forall_forall; intros; apply all_go. }
  destruct (HB false {| graph := []; last_vertex := Some i; functions := []; inside := [] |} [] i)
    as (s & E & L & S & (ST1 & ST2) & _); auto.
  - split; [easy|]. now split.
  - discriminate.
  - easy.
  - rewrite in_app_iff. intros [J|J]; [easy|]. apply block_calls_fit in J as [J|J]; [easy| |apply all_fit].
    now apply iN, block_inner.
  - now inversion ND.
  - easy.
  - easy.
  - unfold thread_module. rewrite E. unfold link_last, set_successor, has_successor. rewrite L, S.
    simpl. rewrite ST2, ST1. simpl. eauto.
Qed.
