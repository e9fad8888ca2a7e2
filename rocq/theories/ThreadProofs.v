(** * Proofs about threading *)

From Coq Require Import String List Bool Arith Lia.
From Verif Require Import AstModel SymbolModel SymbolSpec SymbolProofs ThreadModel ThreadSpec.
Import ListNotations.

Lemma then_some r f s : then_ r f = Some s -> exists s1, r = Some s1 /\ f s1 = Some s.
Proof. destruct r; simpl; [eauto|discriminate]. Qed.

Ltac unthen :=
  repeat match goal with
  | H : then_ _ _ = Some _ |- _ =>
      let s := fresh "s" in let E := fresh "E" in
      apply then_some in H; destruct H as (s & E & H)
  end.

(** ** Induction on statements *)

Section StmtInd.
Variable P : tstmt -> Prop.
Hypothesis HE : forall e, P (Expression e).
Hypothesis HA : forall i t e, P (Assignment i t e).
Hypothesis HR : forall i e, P (Return i e).
Hypothesis HC : forall i k c t f, Forall P (block_statements t) -> Forall P (block_statements f) ->
  P (Choice i k c t f).
Hypothesis HL : forall i c t f, Forall P (block_statements t) -> Forall P (block_statements f) ->
  P (Loop i c t f).
Hypothesis HD : forall i n a b, Forall P (block_statements b) -> P (Definition_ i n a b).
Fixpoint tstmt_induction (x : tstmt) : P x :=
  let go := fix go (l : list tstmt) : Forall P l :=
    match l with
    | [] => Forall_nil P
    | y :: l' => @Forall_cons _ P y l' (tstmt_induction y) (go l')
    end in
  match x with
  | Expression e => HE e
  | Assignment i t e => HA i t e
  | Return i e => HR i e
  | Choice i k c t f =>
      HC i k c t f (match t with Block _ _ l => go l end) (match f with Block _ _ l => go l end)
  | Loop i c t f =>
      HL i c t f (match t with Block _ _ l => go l end) (match f with Block _ _ l => go l end)
  | Definition_ i n a b => HD i n a b (match b with Block _ _ l => go l end)
  end.
End StmtInd.

Section ExprInd.
Variable P : texpr -> Prop.
Hypothesis HLf : forall i, P (Leaf i).
Hypothesis HCl : forall i n l, Forall P l -> P (Call i n l).
Hypothesis HOp : forall i l, Forall P l -> P (Operator i l).
Hypothesis HSb : forall i a b, P a -> P b -> P (Subscripted i a b).
Hypothesis HMb : forall i a, P a -> P (Member i a).
Fixpoint texpr_induction (e : texpr) : P e :=
  let go := fix go (l : list texpr) : Forall P l :=
    match l with
    | [] => Forall_nil P
    | y :: l' => @Forall_cons _ P y l' (texpr_induction y) (go l')
    end in
  match e with
  | Leaf i => HLf i
  | Call i n l => HCl i n l (go l)
  | Operator i l => HOp i l (go l)
  | Subscripted i a b => HSb i a b (texpr_induction a) (texpr_induction b)
  | Member i a => HMb i a (texpr_induction a)
  end.
End ExprInd.

(** ** Graphs *)

Lemma successors_app g h v : successors (g ++ h) v = successors g v ++ successors h v.
Proof. unfold successors. now rewrite filter_app, map_app. Qed.

Lemma successors_one a b v : successors [(a, b)] v = if a =? v then [b] else [].
Proof. unfold successors. simpl. now destruct (a =? v). Qed.

Lemma successors_none g v : (forall w, ~ In (v, w) g) -> successors g v = [].
Proof.
  induction g as [|[a b] g IH]; intros H; [easy|]. unfold successors in *. simpl.
  destruct (Nat.eqb_spec a v) as [->|N].
  - exfalso. apply (H b). now left.
  - apply IH. intros w W. apply (H w). now right.
Qed.

Lemma in_successors g v w : In w (successors g v) <-> In (v, w) g.
Proof.
  unfold successors. rewrite in_map_iff. split.
  - intros ([a b] & <- & H). apply filter_In in H as (H & E). apply Nat.eqb_eq in E. simpl in *. now subst.
  - intros H. exists (v, w). split; [easy|]. apply filter_In. split; [easy|]. apply Nat.eqb_refl.
Qed.

Lemma set_successor_some g v w g' : set_successor g v w = Some g' ->
  successors g v = [] /\ g' = g ++ [(v, w)].
Proof.
  unfold set_successor, has_successor, add_successor. destruct (successors g v); [|discriminate].
  now intros [= <-].
Qed.

Lemma link_last_some v s s' : link_last v s = Some s' ->
  exists l, last_vertex s = Some l /\ successors (graph s) l = [] /\
    s' = with_graph (graph s ++ [(l, v)]) s.
Proof.
  unfold link_last. destruct (last_vertex s) as [l|]; [|discriminate].
  destruct (set_successor _ _ _) as [g|] eqn:E; [|discriminate].
  apply set_successor_some in E as (E & ->). intros [= <-]. eauto.
Qed.

Lemma thread_to_some v s s' : thread_to v s = Some s' ->
  (last_vertex s = None /\ s' = with_last (Some v) s) \/
  (exists l, last_vertex s = Some l /\ successors (graph s) l = [] /\
    s' = with_last (Some v) (with_graph (graph s ++ [(l, v)]) s)).
Proof.
  unfold thread_to. destruct (last_vertex s) as [l|] eqn:L.
  - destruct (link_last v s) as [s1|] eqn:E; [|discriminate]. intros [= <-].
    apply link_last_some in E as (l' & L' & S & ->). right. exists l'. rewrite L in L'. now injection L' as <-.
  - intros [= <-]. now left.
Qed.

(** ** What visiting leaves alone *)

Definition allowed (W : nat -> Prop) (s : thread) (v : nat) : Prop := W v \/ last_vertex s = Some v.

Record reach (X W : nat -> Prop) (s s' : thread) : Prop := {
  r_new : exists d, graph s' = graph s ++ d /\
    forall v w, In (v, w) d -> allowed W s v /\ allowed W s w;
  r_closed : forall v, ~ X v -> successors (graph s) v <> [] ->
    successors (graph s') v = successors (graph s) v;
  r_last : forall v, last_vertex s' = Some v -> allowed W s v }.

Definition tabs (W : nat -> Prop) (t : table (nat * nat)) : Prop :=
  forall n d k, value t n = Some (d, k) -> W d /\ W k.

Lemma reach_refl X W s : reach X W s s.
Proof.
  constructor; [exists []; rewrite app_nil_r; easy|easy|]. intros v E. now right.
Qed.

Lemma reach_trans X W s1 s2 s3 : reach X W s1 s2 -> reach X W s2 s3 -> reach X W s1 s3.
Proof.
  intros [(d1 & E1 & N1) C1 L1] [(d2 & E2 & N2) C2 L2].
  assert (A : forall v, allowed W s2 v -> allowed W s1 v) by (intros v [H|H]; [now left|now apply L1]).
  constructor.
  - exists (d1 ++ d2). split; [now rewrite E2, E1, app_assoc|]. intros v w I.
    apply in_app_iff in I as [I|I]; [now apply N1|]. destruct (N2 v w I). split; now apply A.
  - intros v NX NE. rewrite C2; [now apply C1|easy|]. now rewrite C1.
  - intros v E. apply A. now apply L2.
Qed.

Lemma reach_weaken (X W X' W' : nat -> Prop) s s' : (forall v, X v -> X' v) -> (forall v, W v -> W' v) ->
  reach X W s s' -> reach X' W' s s'.
Proof.
  intros HX HW [(d & E & N) C L].
  assert (A : forall v, allowed W s v -> allowed W' s v) by (intros v [H|H]; [left; now apply HW|now right]).
  constructor.
  - exists d. split; [easy|]. intros v w I. destruct (N v w I). split; now apply A.
  - intros v NX. apply C. intros H. apply NX. now apply HX.
  - intros v H. apply A. now apply L.
Qed.

(** Changing what is not looked at. *)
Lemma reach_same X W s s' t t' : graph s = graph t -> last_vertex s = last_vertex t ->
  graph s' = graph t' -> last_vertex s' = last_vertex t' -> reach X W s s' -> reach X W t t'.
Proof.
  intros G L G' L' [(d & E & N) C Q].
  assert (A : forall v, allowed W s v -> allowed W t v) by (unfold allowed; rewrite L; easy).
  constructor.
  - exists d. rewrite <- G, <- G'. split; [easy|]. intros v w I. destruct (N v w I). split; now apply A.
  - rewrite <- G, <- G'. easy.
  - rewrite <- L'. intros v H. apply A. now apply Q.
Qed.

Lemma reach_with_last X (W : nat -> Prop) s v : W v -> reach X W s (with_last (Some v) s).
Proof.
  intros H. constructor; [exists []; simpl; rewrite app_nil_r; easy|easy|]. simpl. intros w [= <-]. now left.
Qed.

Lemma reach_with_none X (W : nat -> Prop) s : reach X W s (with_last None s).
Proof. constructor; [exists []; simpl; rewrite app_nil_r; easy|easy|]. simpl. discriminate. Qed.

Lemma reach_back X W s s' : reach X W s s' -> reach X W s (with_last (last_vertex s) s').
Proof. intros [N C L]. constructor; simpl; auto. intros v H. now right. Qed.

Lemma reach_link X (W : nat -> Prop) v s s' : W v -> link_last v s = Some s' -> reach X W s s'.
Proof.
  intros H E. apply link_last_some in E as (l & L & S & ->). constructor; simpl.
  - exists [(l, v)]. split; [easy|]. intros a b [[= <- <-]|[]]. split; [now right|now left].
  - intros a NX NE. rewrite successors_app, successors_one. destruct (Nat.eqb_spec l a) as [<-|].
    + now rewrite S in NE.
    + apply app_nil_r.
  - intros a E. now right.
Qed.

Lemma reach_add (X W : nat -> Prop) v i s : last_vertex s = Some v -> X v -> W i ->
  reach X W s (with_graph (add_successor (graph s) v i) s).
Proof.
  intros L XV WI. constructor; simpl.
  - exists [(v, i)]. split; [easy|]. intros a b [[= <- <-]|[]]. split; [now right|now left].
  - intros a NX NE. unfold add_successor. rewrite successors_app, successors_one.
    destruct (Nat.eqb_spec v a) as [<-|]; [easy|apply app_nil_r].
  - intros a E. now right.
Qed.

Lemma reach_thread X (W : nat -> Prop) v s s' : W v -> thread_to v s = Some s' -> reach X W s s'.
Proof.
  intros H E. unfold thread_to in E. destruct (last_vertex s) eqn:L.
  - destruct (link_last v s) as [s1|] eqn:E1; [|discriminate]. injection E as <-.
    eapply reach_trans; [eapply reach_link; eauto|]. now apply reach_with_last.
  - injection E as <-. now apply reach_with_last.
Qed.

Definition stay (s s' : thread) : Prop := functions s' = functions s /\ inside s' = inside s.
Lemma stay_refl s : stay s s. Proof. easy. Qed.
Lemma stay_trans s1 s2 s3 : stay s1 s2 -> stay s2 s3 -> stay s1 s3.
Proof. unfold stay. intros (-> & ->) (-> & ->). easy. Qed.

Lemma stay_link v s s' : link_last v s = Some s' -> stay s s'.
Proof. intros E. apply link_last_some in E as (l & _ & _ & ->). easy. Qed.

Lemma stay_thread v s s' : thread_to v s = Some s' -> stay s s'.
Proof. intros E. apply thread_to_some in E as [(_ & ->)|(l & _ & _ & ->)]; easy. Qed.

Lemma visits_all {Y S} (f : Y -> S -> option S) (R : S -> S -> Prop) (Q : S -> Prop) l :
  (forall s, R s s) -> (forall a b c, R a b -> R b c -> R a c) ->
  (forall s s', Q s -> R s s' -> Q s') ->
  (forall x, In x l -> forall s s', Q s -> f x s = Some s' -> R s s') ->
  forall s s', Q s -> visits f l s = Some s' -> R s s'.
Proof.
  intros RR RT RQ. induction l as [|x l IH]; intros H s s' HQ; simpl.
  - intros [= <-]. apply RR.
  - destruct (f x s) as [s1|] eqn:E; [|discriminate]. intros E'.
    assert (R s s1) by (apply (H x); simpl; auto).
    eapply RT; eauto. apply IH; auto. + intros y Y1. apply H. now right. + eapply RQ; eauto.
Qed.

Definition fine (X W : nat -> Prop) (s s' : thread) : Prop := reach X W s s' /\ stay s s'.
Lemma fine_refl X W s : fine X W s s.
Proof. split; [apply reach_refl|apply stay_refl]. Qed.
Lemma fine_trans X W a b c : fine X W a b -> fine X W b c -> fine X W a c.
Proof. intros (R & S) (R' & S'). split; [eapply reach_trans|eapply stay_trans]; eauto. Qed.
Lemma fine_thread X (W : nat -> Prop) v s s' : W v -> thread_to v s = Some s' -> fine X W s s'.
Proof. intros H E. split; [eapply reach_thread; eauto|eapply stay_thread; eauto]. Qed.
Lemma fine_link X (W : nat -> Prop) v s s' : W v -> link_last v s = Some s' -> fine X W s s'.
Proof. intros H E. split; [eapply reach_link; eauto|eapply stay_link; eauto]. Qed.
Lemma fine_last X (W : nat -> Prop) v s : W v -> fine X W s (with_last (Some v) s).
Proof. intros H. split; [now apply reach_with_last|easy]. Qed.
Lemma fine_none X W s : fine X W s (with_last None s).
Proof. split; [apply reach_with_none|easy]. Qed.
Lemma fine_tabs X W s s' : tabs W (functions s) -> fine X W s s' -> tabs W (functions s').
Proof. intros T (_ & E & _). now rewrite E. Qed.

Lemma visit_expr_fine X W e : forall s s', tabs W (functions s) ->
  (forall v, In v (expr_vertices e) -> W v) -> visit_expr e s = Some s' -> fine X W s s'.
Proof.
  assert (HL : forall l, Forall (fun e => forall s s', tabs W (functions s) ->
     (forall v, In v (expr_vertices e) -> W v) -> visit_expr e s = Some s' -> fine X W s s') l ->
     forall s s', tabs W (functions s) -> (forall v, In v (flat_map expr_vertices l) -> W v) ->
     visits visit_expr l s = Some s' -> fine X W s s').
  { intros l H s s' T V. apply (visits_all _ (fine X W) (fun s => tabs W (functions s)));
      [apply fine_refl|apply fine_trans|apply fine_tabs| |easy].
    intros x IX s1 s2 T1. rewrite Forall_forall in H. apply H; [easy|easy|].
    intros v I. apply V. apply in_flat_map. eauto. }
  induction e using texpr_induction; intros s s' T V E; simpl in *.
  - eapply fine_thread; eauto.
  - unthen. apply HL in E0; [|easy|easy|].
    2:{ intros v I. apply V. apply in_app_iff. now left. }
    assert (T0 := fine_tabs _ _ _ _ T E0).
    apply (fine_thread X W) in E1. 2:{ apply V. apply in_app_iff. right. now left. }
    assert (T1 := fine_tabs _ _ _ _ T0 E1).
    assert (F := fine_trans _ _ _ _ _ E0 E1).
    destruct (value (functions s1) n) as [[d k]|] eqn:Q.
    + unthen. injection E as <-. destruct (T1 _ _ _ Q) as (WD & WK).
      apply (fine_thread X W) in E2; [|easy].
      eapply fine_trans; [exact F|]. eapply fine_trans; [exact E2|]. now apply fine_last.
    + now injection E as <-.
  - unthen. apply HL in E0; [|easy|easy|].
    2:{ intros v I. apply V. apply in_app_iff. now left. }
    eapply fine_trans; [exact E0|]. eapply fine_thread; [|exact E]. apply V. apply in_app_iff. right. now left.
  - unthen. apply IHe1 in E0; [|easy|intros; apply V; rewrite !in_app_iff; auto].
    apply IHe2 in E1; [|now apply (fine_tabs X W s)|intros; apply V; rewrite !in_app_iff; auto].
    eapply fine_trans; [exact E0|]. eapply fine_trans; [exact E1|].
    eapply fine_thread; [|exact E]. apply V. rewrite !in_app_iff. simpl. auto.
  - unthen. apply IHe in E0; [|easy|intros; apply V; rewrite !in_app_iff; auto].
    eapply fine_trans; [exact E0|]. eapply fine_thread; [|exact E]. apply V. rewrite !in_app_iff. simpl. auto.
Qed.

Definition is_return (x : tstmt) : bool := match x with Return _ _ => true | _ => false end.

(** The same table, or only the innermost scope differs. *)
Definition outer_same (t t' : table (nat * nat)) : Prop :=
  forall u sc, t = u ++ [sc] -> exists sc', t' = u ++ [sc'].

Lemma outer_same_refl t : outer_same t t.
Proof. intros u sc ->. eauto. Qed.
Lemma outer_same_trans a b c : outer_same a b -> outer_same b c -> outer_same a c.
Proof. intros H1 H2 u sc E. destruct (H1 _ _ E) as (sc1 & E1). exact (H2 _ _ E1). Qed.

Lemma add_value_outer t n v t' : add_value t n v = Some t' -> outer_same t t'.
Proof.
  intros E u sc ->. unfold add_value in E. rewrite on_back_spec in E. simpl in E. injection E as <-. eauto.
Qed.

(** What visiting a statement may change. *)
Definition kept (m : mode) (X W : nat -> Prop) (s s' : thread) : Prop :=
  reach X W s s' /\ inside s' = inside s /\ tabs W (functions s') /\
  outer_same (functions s) (functions s') /\ (m = Others -> functions s' = functions s).

Lemma fine_kept m X W s s' : tabs W (functions s) -> fine X W s s' -> kept m X W s s'.
Proof.
  intros T F. pose proof (fine_tabs _ _ _ _ T F) as T'. destruct F as (R & E & I).
  unfold kept. split; [easy|]. split; [easy|]. split; [easy|]. split; [rewrite E; apply outer_same_refl|easy].
Qed.

Lemma kept_trans m X W a b c : kept m X W a b -> kept m X W b c -> kept m X W a c.
Proof.
  intros (R & I & T & O & F) (R' & I' & T' & O' & F'). unfold kept.
  split; [eapply reach_trans; eauto|]. split; [congruence|]. split; [easy|].
  split; [eapply outer_same_trans; eauto|]. intros M. rewrite F', F; auto.
Qed.

Definition keeps (x : tstmt) : Prop := forall (X W : nat -> Prop) m s s',
  (forall v, In v (stmt_vertices x) -> X v) -> (forall v, X v -> W v) -> tabs W (functions s) ->
  (forall k r, m = Others -> inside s = k :: r -> is_return x = true -> W k) ->
  visit_stmt m x s = Some s' -> kept m X W s s'.

Lemma tabs_push W t : tabs W t -> tabs W (push_scope t).
Proof.
  intros H n d k. unfold push_scope. rewrite value_lookup, rev_app_distr. simpl.
  intros E. apply (H n d k). now rewrite value_lookup.
Qed.

Lemma add_value_value {T} (t : table T) n v t' n' : add_value t n v = Some t' ->
  value t' n' = if String.eqb n n' then Some v else value t n'.
Proof.
  rewrite !value_lookup. destruct t as [|sc t _] using rev_ind; [discriminate|].
  unfold add_value. rewrite on_back_spec. simpl. intros [= <-]. rewrite !rev_app_distr. simpl.
  rewrite find_set. destruct (String.eqb n n'); [easy|easy].
Qed.

Lemma tabs_add (W : nat -> Prop) t n d k t' : tabs W t -> W d -> W k -> add_value t n (d, k) = Some t' -> tabs W t'.
Proof.
  intros H WD WK E n' d' k' V. rewrite (add_value_value _ _ _ _ _ E) in V.
  destruct (String.eqb n n'); [now injection V as <- <-|eauto].
Qed.

Lemma return_last i e s s' : visit_stmt Others (Return i e) s = Some s' ->
  last_vertex s' = Some i /\ exists k r, inside s = k :: r /\ successors (graph s') i = [k].
Proof.
  simpl. intros E. unthen.
  assert (I0 : inside s0 = inside s).
  { destruct e as [e|]; [|now injection E0 as <-].
    apply (visit_expr_fine (fun _ => True) (fun _ => True)) in E0; [apply E0|easy|easy]. }
  assert (I1 := proj2 (stay_thread _ _ _ E1)).
  assert (L1 : last_vertex s1 = Some i).
  { apply thread_to_some in E1 as [(_ & ->)|(l & _ & _ & ->)]; easy. }
  rewrite I1, I0 in E. destruct (inside s) as [|k r]; [discriminate|].
  apply link_last_some in E as (l & L & S & ->). rewrite L1 in L. injection L as <-. simpl.
  split; [easy|]. exists k, r. split; [easy|]. now rewrite successors_app, S, successors_one, Nat.eqb_refl.
Qed.

(** The vertices visited in either mode. *)
Definition other_part (x : tstmt) : list nat :=
  match x with Definition_ _ _ _ _ => [] | _ => stmt_vertices x end.
Definition definition_part (x : tstmt) : list nat :=
  match x with Definition_ _ _ _ _ => stmt_vertices x | _ => [] end.

Lemma other_part_in l v : In v (flat_map other_part l) -> In v (flat_map stmt_vertices l).
Proof.
  rewrite !in_flat_map. intros (x & I & J). exists x. split; [easy|]. now destruct x.
Qed.
Lemma definition_part_in l v : In v (flat_map definition_part l) -> In v (flat_map stmt_vertices l).
Proof.
  rewrite !in_flat_map. intros (x & I & J). exists x. split; [easy|]. now destruct x.
Qed.

Lemma keeps_other x (X W : nat -> Prop) s s' : keeps x ->
  (forall v, In v (other_part x) -> X v) -> (forall v, X v -> W v) -> tabs W (functions s) ->
  (forall k r, inside s = k :: r -> is_return x = true -> W k) ->
  visit_stmt Others x s = Some s' -> kept Others X W s s'.
Proof.
  intros K V XW T R E. destruct x as [| | | | |i n a b]; try (apply (K X W Others); auto; intros k r _; apply R).
  simpl in E. injection E as <-. apply fine_kept; [easy|apply fine_refl].
Qed.

Lemma keeps_definition x (X W : nat -> Prop) s s' : keeps x ->
  (forall v, In v (definition_part x) -> X v) -> (forall v, X v -> W v) -> tabs W (functions s) ->
  visit_stmt Definitions x s = Some s' -> kept Definitions X W s s'.
Proof.
  intros K V XW T E. destruct x as [| | | | |i n a b];
    try (simpl in E; injection E as <-; apply fine_kept; [easy|apply fine_refl]); try discriminate E.
  apply (K X W Definitions); auto. discriminate.
Qed.

Lemma visit_statements_kept (X W : nat -> Prop) k l :
  Forall keeps l -> (forall v, In v (flat_map other_part l) -> X v) -> (forall v, X v -> W v) -> W k ->
  forall s s', tabs W (functions s) -> visit_statements visit_stmt k l s = Some s' -> kept Others X W s s'.
Proof.
  intros FK V XW WK. induction FK as [|x l KX KL IH]; intros s s' T E; simpl in *.
  - injection E as <-. apply fine_kept; [easy|apply fine_refl].
  - destruct (visit_stmt Others x s) as [s1|] eqn:E1; [|discriminate].
    destruct (last_vertex s1) as [v|] eqn:L1; [|discriminate].
    assert (K1 : kept Others X W s s1).
    { apply (keeps_other x); auto.
      - intros w I. apply V. apply in_app_iff. now left.
      - intros k' r I R. destruct x; try discriminate R.
        apply return_last in E1 as (L & k'' & r' & I' & S). rewrite L1 in L. injection L as ->.
        rewrite S in E. rewrite I in I'. injection I' as <- <-.
        destruct (Nat.eqb_spec k' k) as [->|]; [easy|discriminate]. }
    assert (T1 : tabs W (functions s1)) by apply K1.
    assert (V' : forall v, In v (flat_map other_part l) -> X v).
    { intros w I. apply V. apply in_app_iff. now right. }
    destruct (successors (graph s1) v) as [|w r].
    + eapply kept_trans; [exact K1|]. now apply IH.
    + destruct (w =? k); [|discriminate]. eapply kept_trans; [exact K1|].
      eapply kept_trans; [apply fine_kept; [exact T1|apply fine_none]|]. now apply IH.
Qed.

Lemma visit_definitions_kept (X W : nat -> Prop) l :
  Forall keeps l -> (forall v, In v (flat_map definition_part l) -> X v) -> (forall v, X v -> W v) ->
  forall s s', tabs W (functions s) -> visits (visit_stmt Definitions) l s = Some s' ->
  kept Definitions X W s s'.
Proof.
  intros FK V XW. induction FK as [|x l KX KL IH]; intros s s' T E; simpl in *.
  - injection E as <-. apply fine_kept; [easy|apply fine_refl].
  - destruct (visit_stmt Definitions x s) as [s1|] eqn:E1; [|discriminate].
    assert (K1 : kept Definitions X W s s1).
    { apply (keeps_definition x); auto. intros w I. apply V. apply in_app_iff. now left. }
    eapply kept_trans; [exact K1|]. apply IH; [|apply K1|easy].
    intros w I. apply V. apply in_app_iff. now right.
Qed.

Lemma finish_fine (X W : nat -> Prop) k l s s' : W k -> finish k l s = Some s' ->
  fine X W s s' /\ last_vertex s' = Some k.
Proof.
  intros WK. unfold finish. destruct (last_vertex s) eqn:L.
  - unfold visit_sentinel. intros E. unthen. injection E as <-. split; [|easy].
    eapply fine_trans; [eapply fine_link; eauto|]. now apply fine_last.
  - destruct (rev l); [discriminate|]. destruct (successors _ _); [discriminate|].
    destruct (_ =? _); [|discriminate]. intros [= <-]. split; [|easy]. now apply fine_last.
Qed.

Lemma pop_outer {T} (t : table T) u sc : t = u ++ [sc] -> pop_scope t = Some u.
Proof.
  intros ->. unfold pop_scope. destruct (u ++ [sc]) eqn:E; [now destruct u|].
  rewrite <- E. now rewrite removelast_last.
Qed.

Lemma visit_scope_kept (X W : nat -> Prop) b s s' v :
  Forall keeps (block_statements b) -> (forall w, In w (block_vertices b) -> X w) ->
  (forall w, X w -> W w) -> tabs W (functions s) -> last_vertex s = Some v -> X v ->
  visit_scope visit_stmt b s = Some s' ->
  fine X W s s' /\ last_vertex s' = Some (block_sentinel b).
Proof.
  destruct b as [i k l]. unfold block_vertices, block_vertices_, visit_scope. simpl.
  intros FK V XW T L XV E. rewrite L in E. unthen.
  set (s0' := with_last _ (with_functions _ s)) in E0.
  assert (XI : X i) by auto. assert (XK : X k) by (apply V; right; apply in_app_iff; right; now left).
  assert (VL : forall w, In w (flat_map stmt_vertices l) -> X w).
  { intros w I. apply V. right. apply in_app_iff. now left. }
  assert (K0 : kept Definitions X W s0' s0).
  { apply (visit_definitions_kept X W l); auto.
    - intros w I. now apply VL, definition_part_in.
    - unfold s0'. simpl. now apply tabs_push. }
  destruct K0 as (R0 & I0 & T0 & O0 & _).
  destruct (O0 (functions s) []) as (sc & F0); [reflexivity|].
  set (s0'' := with_last (Some i) _) in E1.
  assert (K1 : kept Others X W s0'' s1).
  { apply (visit_statements_kept X W k l); auto. intros w I. now apply VL, other_part_in. }
  destruct K1 as (R1 & I1 & T1 & _ & F1).
  apply (finish_fine X W) in E2 as ((R2 & F2 & I2) & L2); [|auto].
  assert (FF : functions s2 = functions s ++ [sc]).
  { rewrite F2, F1 by easy. unfold s0''. simpl. exact F0. }
  rewrite (pop_outer _ _ _ FF) in E. injection E as <-. simpl. split; [|easy].
  split; [|split; [easy|]].
  2:{ simpl. rewrite I2, I1. unfold s0''. simpl. rewrite I0. easy. }
  apply (reach_same X W s s2); [easy|easy|easy|easy|].
  assert (RA : reach X W s s0).
  { eapply reach_trans; [|exact R0]. apply (reach_same X W s (with_last (Some i) s)); try easy.
    apply reach_with_last. auto. }
  assert (RB : reach X W s (with_last (Some v) s0)) by (rewrite <- L; now apply reach_back).
  eapply reach_trans; [exact RB|].
  eapply reach_trans; [apply (reach_add X W v i); auto|].
  eapply reach_trans; [|eapply reach_trans; [exact R1|exact R2]].
  set (sv := with_graph _ _). apply (reach_same X W sv (with_last (Some i) sv)); try easy.
  apply reach_with_last. auto.
Qed.

Lemma at_vertex_some v s s' : at_vertex v s = Some s' -> s' = s /\ last_vertex s = Some v.
Proof.
  unfold at_vertex. destruct (last_vertex s) as [w|]; [|discriminate].
  destruct (Nat.eqb_spec w v) as [->|]; [|discriminate]. now intros [= <-].
Qed.

Lemma visits_thread_fine (X W : nat -> Prop) l : (forall v, In v l -> W v) ->
  forall s s', visits thread_to l s = Some s' -> fine X W s s'.
Proof.
  intros V s s' E. revert E.
  apply (visits_all thread_to (fine X W) (fun _ => True)); auto.
  - apply fine_refl.
  - apply fine_trans.
  - intros x I a b _ E. eapply fine_thread; eauto.
Qed.

Lemma visits_thread_last l : forall s s' v, visits thread_to l s = Some s' -> last_vertex s = Some v ->
  exists w, last_vertex s' = Some w /\ (w = v \/ In w l).
Proof.
  induction l as [|x l IH]; intros s s' v E L; simpl in *.
  - injection E as <-. eauto.
  - destruct (thread_to x s) as [s1|] eqn:E1; [|discriminate].
    assert (L1 : last_vertex s1 = Some x) by (apply thread_to_some in E1 as [(_ & ->)|(? & _ & _ & ->)]; easy).
    destruct (IH _ _ _ E L1) as (w & LW & [->|I]); eauto.
Qed.

Lemma choice_vertices i k c t f : stmt_vertices (Choice i k c t f) =
  expr_vertices c ++ i :: block_vertices t ++ block_vertices f ++ [k].
Proof. reflexivity. Qed.
Lemma definition_vertices i n a b : stmt_vertices (Definition_ i n a b) = i :: a ++ block_vertices b.
Proof. reflexivity. Qed.

Lemma visit_stmt_keeps x : keeps x.
Proof.
  induction x using tstmt_induction; intros X W m s s' V XW T HR E.
  - destruct m; simpl in E.
    + injection E as <-. apply fine_kept; [easy|apply fine_refl].
    + apply fine_kept; [easy|]. eapply visit_expr_fine; eauto.
  - destruct m; simpl in E.
    + injection E as <-. apply fine_kept; [easy|apply fine_refl].
    + apply fine_kept; [easy|]. simpl in V. unthen.
      apply (visit_expr_fine X W) in E0; [|easy|intros; apply XW, V; rewrite !in_app_iff; auto].
      apply (visit_expr_fine X W) in E1; [|eapply fine_tabs; eauto|intros; apply XW, V; rewrite !in_app_iff; auto].
      eapply fine_trans; [exact E0|]. eapply fine_trans; [exact E1|].
      destruct (last_vertex s1); [|discriminate]. eapply fine_thread; [|exact E].
      apply XW, V. rewrite !in_app_iff. simpl. auto.
  - destruct m; simpl in E.
    + injection E as <-. apply fine_kept; [easy|apply fine_refl].
    + apply fine_kept; [easy|]. unthen.
      assert (F0 : fine X W s s0).
      { destruct e as [e|]; [|injection E0 as <-; apply fine_refl].
        eapply visit_expr_fine; eauto. intros v I. apply XW, V. simpl. apply in_app_iff. now left. }
      apply (fine_thread X W) in E1.
      2:{ apply XW, V. destruct e; simpl; [apply in_app_iff; right|]; now left. }
      assert (F := fine_trans _ _ _ _ _ F0 E1). eapply fine_trans; [exact F|].
      destruct F as (_ & _ & I1). destruct (inside s1) as [|k r] eqn:J; [discriminate|].
      eapply fine_link; [|exact E]. now apply (HR k r).
  - destruct m; simpl in E.
    + injection E as <-. apply fine_kept; [easy|apply fine_refl].
    + apply fine_kept; [easy|]. rewrite choice_vertices in V.
      unthen. apply at_vertex_some in E3 as (-> & L3).
      assert (VC : forall v, In v (expr_vertices c) -> X v) by (intros; apply V; rewrite !in_app_iff; auto).
      assert (VT : forall v, In v (block_vertices t) -> X v).
      { intros v I. apply V. rewrite in_app_iff. right. right. rewrite !in_app_iff. auto. }
      assert (VF : forall v, In v (block_vertices f) -> X v).
      { intros v I. apply V. rewrite in_app_iff. right. right. rewrite !in_app_iff. auto. }
      assert (XI : X i) by (apply V; rewrite in_app_iff; right; now left).
      assert (XK : X k) by (apply V; rewrite in_app_iff; right; right; rewrite !in_app_iff; simpl; auto).
      apply (visit_expr_fine X W) in E0; [|easy|auto].
      apply (fine_link X W) in E1; [|auto].
      assert (F1 := fine_trans _ _ _ _ _ E0 E1).
      assert (FL := fine_trans _ _ _ _ _ F1 (fine_last X W i s1 (XW _ XI))).
      assert (TL : tabs W (functions (with_last (Some i) s1))) by (eapply fine_tabs; eauto).
      apply (visit_scope_kept X W _ _ _ i) in E2 as (F2 & L2); auto.
      apply (fine_link X W) in E4; [|auto].
      assert (F4 := fine_trans _ _ _ _ _ FL (fine_trans _ _ _ _ _ F2 E4)).
      assert (F5 : fine X W s4 s5).
      { assert (G : forall f, (forall v, In v (block_vertices f) -> X v) -> Forall keeps (block_statements f) ->
          then_ (visit_scope visit_stmt f (with_last (Some i) s4)) (fun s =>
                 then_ (at_vertex (block_sentinel f) s) (link_last k)) = Some s5 -> fine X W s4 s5).
        { clear E5. intros f' VF' HF' Q.
          apply then_some in Q as (sx & E3 & Q). apply then_some in Q as (sy & Q' & Q).
          apply at_vertex_some in Q' as (-> & L6).
          assert (F5 := fine_last X W i s4 (XW _ XI)).
          apply (visit_scope_kept X W _ _ _ i) in E3 as (F3 & _); auto.
          - eapply fine_trans; [exact F5|]. eapply fine_trans; [exact F3|]. eapply fine_link; eauto.
          - eapply fine_tabs; [|exact F5]. eapply fine_tabs; [exact T|]. exact F4. }
        destruct f as [fi fk [|y l]]; [injection E5 as <-; apply fine_refl|]. now apply (G (Block fi fk (y :: l))). }
      injection E as <-. eapply fine_trans; [exact F4|]. eapply fine_trans; [exact F5|]. apply fine_last. auto.
  - destruct m; discriminate E.
  - destruct m; simpl in E.
    2:{ injection E as <-. apply fine_kept; [easy|apply fine_refl]. }
    rewrite definition_vertices in V. unthen. apply at_vertex_some in E2 as (-> & L2).
    destruct (add_value (functions s1) n (i, block_sentinel b)) as [t|] eqn:EA; [|discriminate].
    destruct (match last_vertex s with Some v => v =? block_sentinel b | None => false end); [discriminate|].
    destruct (has_successor (graph s1) (block_sentinel b)); [discriminate|]. injection E as <-.
    set (sa := with_last _ (with_inside _ s)) in E0.
    assert (XI : X i) by (apply V; now left).
    assert (VB : forall v, In v (block_vertices b) -> X v) by (intros; apply V; right; apply in_app_iff; auto).
    assert (VA : forall v, In v a -> X v) by (intros; apply V; right; apply in_app_iff; auto).
    assert (XK : X (block_sentinel b)).
    { apply VB. unfold block_vertices, block_vertices_. right. apply in_app_iff. right. now left. }
    pose proof (visits_thread_last _ _ _ i E0 eq_refl) as (w & LW & WI).
    apply (visits_thread_fine X W) in E0; [|auto].
    assert (XWv : X w) by (destruct WI as [->|]; auto).
    assert (Ta : tabs W (functions s0)) by (eapply fine_tabs; [|exact E0]; exact T).
    apply (visit_scope_kept X W _ _ _ w) in E1 as (F1 & _); auto.
    pose proof (fine_trans _ _ _ _ _ E0 F1) as (RF & FF & IF).
    split; [|split; [simpl; rewrite IF; easy|split; [|split; [|discriminate]]]]; simpl.
    + apply (reach_same X W s (with_last (last_vertex s) s1)); try easy. apply reach_back.
      eapply reach_trans; [|exact RF]. apply (reach_same X W s (with_last (Some i) s)); try easy.
      apply reach_with_last. auto.
    + apply (tabs_add W _ n i (block_sentinel b) _) with (4 := EA); auto. rewrite FF. exact T.
    + eapply outer_same_trans; [|eapply add_value_outer; exact EA]. rewrite FF. apply outer_same_refl.
Qed.
