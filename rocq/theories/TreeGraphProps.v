(** * C85: graphs of syntax trees *)
From Coq Require Import String List Bool Arith Lia.
From Verif Require Import AstModel SymbolModel ThreadModel ThreadSpec ThreadProofs TreeGraphModel TreeGraphSpec TreeGraphProofs.
Import ListNotations.

Section Whole.
Variable debug : bool.
Variables (leaf_of : nat -> leaf) (symbol : nat -> string).
Variable types : nat -> list (string * string).
Variables (flow : links) (uses : nat -> list nat).
Local Notation visit_node := (visit_node debug leaf_of symbol types flow uses).
Local Notation own := (own debug leaf_of symbol types flow uses).
Local Notation graph := (tree_graph debug leaf_of symbol types flow uses).

Lemma parts cfg use source root l : graph cfg use source root = Some l -> exists d t f u,
  l = d ++ t ++ f ++ u /\
  visit_node Declaring source (OfBlock root) = Some d /\ visit_node ConnectingAst source (OfBlock root) = Some t /\
  (if cfg then visit_node ConnectingCfg source (OfBlock root) else Some []) = Some f /\
  (if use then visit_node ConnectingUses source (OfBlock root) else Some []) = Some u.
Proof.
  unfold tree_graph. intros E. apply join_some in E as (d & r & Ed & E & ->). apply join_some in E as (t & r' & Et & E & ->).
  apply join_some in E as (f & u & Ef & Eu & ->). exists d, t, f, u. repeat split; auto.
Qed.

(** Each mode adds lines of one kind. *)
Definition kind (m : graph_mode) (x : line) : Prop :=
  match m, x with
  | Declaring, Vertex _ _ | ConnectingCfg, FlowEdge _ _ | ConnectingUses, UseEdge _ _
  | ConnectingAst, Edge _ _ | ConnectingAst, Opens _ _ | ConnectingAst, Closes => True
  | _, _ => False
  end.
Lemma own_kind m name n u x : own m name n = Some u -> In x u -> kind m x.
Proof.
  assert (D : forall i o u, vertex_line i o = Some u -> In x u -> kind Declaring x).
  { intros i [y|] w; cbn; [|discriminate]. injection 1 as <-. intros [<-|[]]. exact I. }
  assert (A : forall v l, In x (tree_edges v l) -> kind ConnectingAst x).
  { intros v l H. apply in_map_iff in H as (? & <- & _). exact I. }
  assert (F : forall v, In x (flow_edges flow v) -> kind ConnectingCfg x).
  { intros v H. apply in_map_iff in H as (? & <- & _). exact I. }
  assert (U : forall v, In x (use_edges uses v) -> kind ConnectingUses x).
  { intros v H. apply in_map_iff in H as (? & <- & _). exact I. }
  destruct n as [e|y|b]; cbn [TreeGraphProofs.own]; intros E H.
  - destruct e, m; cbn [own_expr] in E; try (injection E as <-); eauto; try easy.
    2: { destruct H as [<-|[<-|[]]]; exact I. }
    destruct (leaf_of id); injection E as <-; eauto; easy.
  - destruct y as [e|i t e|i [e|]|i k c t f|i c t f|i g args b], m; injection E as <-; eauto; try easy.
    all: repeat (destruct H as [<-|H]; [exact I|]); destruct H.
  - destruct m; injection E as <-; try easy.
    + destruct H as [<-|[]]; exact I.
    + destruct H as [<-|H]; [exact I|eauto].
Qed.
Lemma closing_kind m n x : In x (closing m n) -> kind m x.
Proof. destruct n, m; cbn; try easy; intros [<-|[]]; exact I. Qed.
Lemma visit_kind m name n l x : visit_node m name n = Some l -> In x l -> kind m x.
Proof.
  intros E H. rewrite (visit_in _ _ _ _ _ _ _ _ _ _ _ E) in H. destruct H as (d & name' & s & u & _ & [[Eo H]|H]).
  - eapply own_kind; eauto.
  - eapply closing_kind; eauto.
Qed.
Lemma visit_kind_if m (b : bool) name n l x : (if b then visit_node m name n else Some []) = Some l -> In x l -> b = true /\ kind m x.
Proof. destruct b; [|injection 1 as <-; easy]. intros E H. split; [reflexivity|]. eapply visit_kind; eauto. Qed.

Definition calm (l : list line) : Prop := forall x, In x l -> match x with Opens _ _ | Closes => False | _ => True end.
Lemma located_calm l r st : calm l -> located (l ++ r) st = map (pair st) l ++ located r st.
Proof.
  induction l as [|x l IH]; intros C; [reflexivity|].
  assert (C' : calm l) by (intros y H; apply C; cbn; auto). pose proof (C x (or_introl eq_refl)) as Cx.
  destruct x; cbn [app located map]; try easy; rewrite IH; auto.
Qed.
Lemma open_calm l r st : calm l -> still_open (l ++ r) st = still_open r st.
Proof.
  induction l as [|x l IH]; intros C; [reflexivity|].
  assert (C' : calm l) by (intros y H; apply C; cbn; auto). pose proof (C x (or_introl eq_refl)) as Cx.
  destruct x; cbn [app still_open]; try easy; auto.
Qed.
Lemma kind_calm m l : m <> ConnectingAst -> (forall x, In x l -> kind m x) -> calm l.
Proof. intros N H x I. specialize (H x I). destruct m, x; cbn in *; easy. Qed.
Lemma located_nil st : located [] st = [].
Proof. reflexivity. Qed.

(** The lines that are not declarations *)
Lemma located_whole cfg use source root l y : graph cfg use source root = Some l -> exists t,
  visit_node ConnectingAst source (OfBlock root) = Some t /\ still_open l [] = Some [] /\
  (match snd y with Edge _ _ | Opens _ _ | Closes => True | _ => False end -> (In y (located l []) <-> In y (located t []))).
Proof.
  intros E. apply parts in E as (d & t & f & u & -> & Ed & Et & Ef & Eu). exists t. split; [exact Et|].
  assert (Cd : calm d). { apply (kind_calm Declaring); [discriminate|]. intros x. eapply visit_kind; eauto. }
  assert (Cf : calm f). { apply (kind_calm ConnectingCfg); [discriminate|]. intros x H. eapply (visit_kind_if ConnectingCfg); eauto. }
  assert (Cu : calm u). { apply (kind_calm ConnectingUses); [discriminate|]. intros x H. eapply (visit_kind_if ConnectingUses); eauto. }
  destruct (visit_quiet _ _ _ _ _ _ _ _ _ Et) as [Q Q']. split.
  - rewrite (open_calm _ _ _ Cd), Q', (open_calm _ _ _ Cf). rewrite <- (app_nil_r u), (open_calm _ _ _ Cu). reflexivity.
  - intros K. rewrite (located_calm _ _ _ Cd), Q, (located_calm _ _ _ Cf).
    rewrite <- (app_nil_r u), (located_calm _ _ _ Cu), located_nil, app_nil_r, !in_app_iff.
    assert (N : forall m k, m <> ConnectingAst -> (forall x, In x k -> kind m x) -> ~ In y (map (pair []) k)).
    { intros m k Nm Hk H. apply in_map_iff in H as (x & <- & H). specialize (Hk x H). cbn in K. destruct m, x; cbn in *; easy. }
    pose proof (N Declaring d ltac:(discriminate) (fun x => visit_kind _ _ _ _ x Ed)) as N1.
    pose proof (N ConnectingCfg f ltac:(discriminate) (fun x H => proj2 (visit_kind_if _ _ _ _ _ x Ef H))) as N2.
    pose proof (N ConnectingUses u ltac:(discriminate) (fun x H => proj2 (visit_kind_if _ _ _ _ _ x Eu H))) as N3.
    tauto.
Qed.
Lemma in_whole cfg use source root l x : graph cfg use source root = Some l ->
  (In x l <->
   exists m name scopes d u, (m = ConnectingCfg -> cfg = true) /\ (m = ConnectingUses -> use = true) /\
     around source [block_id root] (OfBlock root) name scopes d /\ ((own m name d = Some u /\ In x u) \/ In x (closing m d))).
Proof.
  intros E. apply parts in E as (d & t & f & u & -> & Ed & Et & Ef & Eu).
  assert (Y : forall name l n name' l' d, around name l n name' l' d -> forall l2, exists l3, around name l2 n name' l3 d).
  { clear. induction 1 as [name l n|name l n c name' l' d I _ IH]; intros l2; [exists l2; constructor|].
    destruct (IH (scope_of c ++ l2)) as (l3 & H). exists l3. econstructor; eauto. }
  assert (V : forall m k, visit_node m source (OfBlock root) = Some k -> (In x k <->
     exists name scopes d u, around source [block_id root] (OfBlock root) name scopes d /\ ((own m name d = Some u /\ In x u) \/ In x (closing m d)))).
  { intros m k Ek. rewrite (visit_in _ _ _ _ _ _ _ _ _ _ _ Ek). split.
    - intros (z & name & s & q & A & H). destruct (Y _ _ _ _ _ _ A [block_id root]) as (s' & A'). exists name, s', z, q. auto.
    - intros (name & s & z & q & A & H). destruct (Y _ _ _ _ _ _ A []) as (s' & A'). exists z, name, s', q. auto. }
  assert (V' : forall m (b : bool) k, (if b then visit_node m source (OfBlock root) else Some []) = Some k -> (In x k <->
     b = true /\ exists name scopes d u, around source [block_id root] (OfBlock root) name scopes d /\ ((own m name d = Some u /\ In x u) \/ In x (closing m d)))).
  { intros m [|] k Ek; [rewrite (V _ _ Ek); tauto|]. injection Ek as <-. cbn. split; [easy|intros [? _]; discriminate]. }
  rewrite !in_app_iff, (V _ _ Ed), (V _ _ Et), (V' _ _ _ Ef), (V' _ _ _ Eu). split.
  - intros [H|[H|[[C H]|[C H]]]]; destruct H as (name & s & z & q & A & H); eexists _, name, s, z, q; repeat split;
      try exact A; try exact H; intros; congruence.
  - intros (m & name & s & z & q & C & U & A & H). destruct m.
    + left. exists name, s, z, q. auto.
    + right. left. exists name, s, z, q. auto.
    + right. right. left. split; [auto|]. exists name, s, z, q. auto.
    + right. right. right. split; [auto|]. exists name, s, z, q. auto.
Qed.
Lemma found_inside source root name s n : around source [block_id root] (OfBlock root) name s n -> inside_of root n.
Proof. intros H. exists source, name, s. exact H. Qed.
Lemma inside_found source root n : inside_of root n -> exists name s, around source [block_id root] (OfBlock root) name s n.
Proof. intros H. apply inside_below in H. apply around_below. exact H. Qed.
Lemma own_always m name n : m <> Declaring -> exists u, own m name n = Some u.
Proof.
  intros N. destruct (own m name n) eqn:E; [eauto|]. apply own_none in E. destruct E as (-> & _). easy.
Qed.
Lemma own_flow name n u v w : own ConnectingCfg name n = Some u ->
  (In (FlowEdge v w) u <-> v = vertex n /\ flows n = true /\ In w (successors flow v)).
Proof.
  assert (F : forall i, In (FlowEdge v w) (flow_edges flow i) <-> v = i /\ In w (successors flow v)).
  { intros i. unfold flow_edges. rewrite in_map_iff. split.
    - intros (z & E & H). injection E as <- <-. auto.
    - intros [-> H]. eauto. }
  destruct n as [e|y|b]; cbn [TreeGraphProofs.own].
  - destruct e; cbn [own_expr flows vertex expr_vertex]; injection 1 as <-; rewrite ?F; cbn [In]; intuition congruence.
  - destruct y as [e|i t e|i [e|]|i k c t f|i c t f|i g args b]; cbn [flows vertex stmt_vertex]; injection 1 as <-; rewrite ?F; cbn [In];
      intuition congruence.
  - injection 1 as <-. cbn. intuition congruence.
Qed.
Lemma own_uses name n u v w : own ConnectingUses name n = Some u ->
  (In (UseEdge v w) u <-> v = vertex n /\ is_name leaf_of n = true /\ In w (uses v)).
Proof.
  assert (F : forall i, In (UseEdge v w) (use_edges uses i) <-> v = i /\ In w (uses v)).
  { intros i. unfold use_edges. rewrite in_map_iff. split.
    - intros (z & E & H). injection E as <- <-. auto.
    - intros [-> H]. eauto. }
  destruct n as [e|y|b]; cbn [TreeGraphProofs.own].
  - destruct e; cbn [own_expr is_name vertex expr_vertex]; try (injection 1 as <-; cbn [In]; intuition congruence).
    destruct (leaf_of id); injection 1 as <-; rewrite ?F; cbn [In]; intuition congruence.
  - destruct y as [e|i t e|i [e|]|i k c t f|i c t f|i g args b]; cbn [is_name]; injection 1 as <-; cbn [In]; intuition congruence.
  - injection 1 as <-. cbn. intuition congruence.
Qed.
End Whole.

(** ** Vertices *)

(** A vertex is shown for everything in the tree with what is written in it, apart from attributes
    (and from the arguments of function definitions), and for the sentinel of every scope. *)
Theorem C85_vertices : forall debug leaf_of symbol types flow uses cfg use source root l,
  tree_graph debug leaf_of symbol types flow uses cfg use source root = Some l ->
  forall v x, In (Vertex v x) l <->
    (exists n, inside_of root n /\ v = vertex n /\ label_of leaf_of symbol types n = Some x) \/
    (exists b, inside_of root (OfBlock b) /\ v = block_sentinel b /\ x = "sentinel"%string).
Proof.
  intros debug leaf_of symbol types flow uses cfg use source root l E v x. rewrite (in_whole _ _ _ _ _ _ _ _ _ _ _ _ E). split.
  - intros (m & name & s & d & u & _ & _ & A & [[Eo H]|H]).
    + pose proof (own_kind _ _ _ _ _ _ _ _ _ _ _ Eo H) as K. destruct m; try easy.
      apply own_shown in Eo as [_ Eo]. apply Eo in H as [-> H]. left. exists d. split; [eapply found_inside; eauto|auto].
    + pose proof (closing_kind _ _ _ H) as K. destruct m; try easy. right. destruct d as [| |b]; try easy.
      destruct H as [H|[]]. injection H as <- <-. exists b. split; [eapply found_inside; eauto|auto].
  - intros [(n & I & -> & L)|(b & I & -> & ->)].
    + destruct (inside_found source root n I) as (name & s & A).
      assert (X : exists u, own debug leaf_of symbol types flow uses Declaring name n = Some u).
      { destruct (own _ _ _ _ _ _ Declaring name n) eqn:Eo; [eauto|]. exfalso. apply own_none in Eo. destruct Eo as (_ & D & T & S).
        apply parts in E as (d & t & f & u & _ & Ed & _).
        assert (N : visit_node debug leaf_of symbol types flow uses Declaring source (OfBlock root) = None); [|congruence].
        apply visit_none. repeat split; auto. exists n. split; [|auto]. unfold below. eauto. }
      destruct X as (u & Eo). exists Declaring, name, s, n, u. repeat split; try discriminate; auto. left. split; [exact Eo|].
      apply own_shown in Eo as [_ Eo]. apply Eo. auto.
    + destruct (inside_found source root _ I) as (name & s & A).
      exists Declaring, name, s, (OfBlock b), []. repeat split; try discriminate; auto. right. cbn. auto.
Qed.
Print Assumptions C85_vertices.

(** Each of them once, if vertices have different addresses; and there is one cluster for each scope. *)
Theorem C85_once : forall debug leaf_of symbol types flow uses cfg use source root l,
  tree_graph debug leaf_of symbol types flow uses cfg use source root = Some l ->
  NoDup (block_vertices root) -> NoDup (shown l) /\ NoDup (opened l).
Proof.
  intros debug leaf_of symbol types flow uses cfg use source root l E N.
  apply parts in E as (d & t & f & u & -> & Ed & Et & Ef & Eu).
  assert (O : forall v, count (node_vertices (OfBlock root)) v <= 1) by (intros v; apply (NoDup_count_occ Nat.eq_dec); exact N).
  assert (Z : forall (g : line -> list nat) k, (forall x, In x k -> g x = []) -> flat_map g k = []).
  { intros g k H. induction k as [|x k IH]; [reflexivity|]. cbn. rewrite (H x), IH; auto with *. }
  unfold shown, opened. fold of_vertex of_opens. rewrite !flat_map_app. split.
  - rewrite (Z of_vertex t), (Z of_vertex f), (Z of_vertex u), !app_nil_r.
    + apply (NoDup_count_occ Nat.eq_dec). intros v. pose proof (visit_shown_count _ _ _ _ _ _ _ v _ _ Ed). specialize (O v).
      unfold count in *. lia.
    + intros x H. eapply visit_kind_if in Eu as [_ K]; eauto. destruct x; easy.
    + intros x H. eapply visit_kind_if in Ef as [_ K]; eauto. destruct x; easy.
    + intros x H. eapply visit_kind in Et as K; eauto. destruct x; easy.
  - rewrite (Z of_opens d), (Z of_opens f), (Z of_opens u), !app_nil_r; cbn [app].
    + apply (NoDup_count_occ Nat.eq_dec). intros v. pose proof (visit_opened_count _ _ _ _ _ _ _ v _ _ Et). specialize (O v).
      unfold count in *. lia.
    + intros x H. eapply visit_kind_if in Eu as [_ K]; eauto. destruct x; easy.
    + intros x H. eapply visit_kind_if in Ef as [_ K]; eauto. destruct x; easy.
    + intros x H. eapply visit_kind in Ed as K; eauto. destruct x; easy.
Qed.
Print Assumptions C85_once.

(** ** The tree *)

(** There is an edge from a vertex to another one, in the clusters of the scopes around the first, just
    if the other one is one of those below it to which a line is drawn. *)
Theorem C85_edges : forall debug leaf_of symbol types flow uses cfg use source root l,
  tree_graph debug leaf_of symbol types flow uses cfg use source root = Some l ->
  forall clusters v w, In (clusters, Edge v w) (located l []) <->
    exists n name, found source root name clusters n /\ v = vertex n /\ In w (map vertex (connected n)).
Proof.
  intros debug leaf_of symbol types flow uses cfg use source root l E clusters v w.
  destruct (located_whole _ _ _ _ _ _ _ _ _ _ _ (clusters, Edge v w) E) as (t & Et & _ & H).
  rewrite (H I), (visit_edges _ _ _ _ _ _ _ _ _ _ _ _ _ Et). reflexivity.
Qed.
Print Assumptions C85_edges.

(** Edges begin at vertices that are shown, and lead to such vertices or to attributes. *)
Lemma located_in l x : forall st, In x l -> exists st', In (st', x) (located l st).
Proof.
  induction l as [|y l IH]; intros st; [easy|]. intros [->|H].
  - exists st. destruct x; cbn; auto.
  - destruct y; cbn [located]; edestruct IH as (st' & H'); [exact H| |exact H| |exact H| |exact H| |exact H| |exact H|]; exists st'; right; exact H'.
Qed.
Theorem C85_ends : forall debug leaf_of symbol types flow uses cfg use source root l v w,
  tree_graph debug leaf_of symbol types flow uses cfg use source root = Some l -> In (Edge v w) l ->
  In v (shown l) /\ (In w (shown l) \/ exists i a, inside_of root (OfExpr (Member i a)) /\ w = i).
Proof.
  intros debug leaf_of symbol types flow uses cfg use source root l v w E H.
  destruct (located_in _ _ [] H) as (st & H'). apply (C85_edges _ _ _ _ _ _ _ _ _ _ _ E) in H' as (n & name & F & -> & I).
  assert (S : forall n x, inside_of root n -> label_of leaf_of symbol types n = Some x -> In (vertex n) (shown l)).
  { intros k x Ik L. unfold shown. apply in_flat_map. exists (Vertex (vertex k) x). split; [|cbn; auto].
    apply (C85_vertices _ _ _ _ _ _ _ _ _ _ _ E). left. eauto. }
  apply found_inside in F. apply in_map_iff in I as (c & <- & I). split.
  - destruct (label_of leaf_of symbol types n) eqn:L; [eauto|]. destruct n as [[]|[]|]; try discriminate; easy.
  - assert (Ic : inside_of root c).
    { apply inside_below. apply inside_below in F. destruct F as (a & k & a' & k' & A).
      assert (C : In c (children n)). { destruct n as [[]|[]|]; cbn [connected] in I; try exact I; try easy; cbn; destruct I as [<-|[]]; auto. }
      clear - A C. exists a, k. induction A as [a k n|a k n d a' k' z Id _ IH].
      - exists (name_below n a), (scope_of c ++ k). econstructor; [exact C|constructor].
      - destruct (IH C) as (p & q & B). exists p, q. econstructor; eauto. }
    destruct (label_of leaf_of symbol types c) eqn:L; [eauto|]. right. destruct c as [[]|[]|]; try discriminate; eauto.
    exfalso. destruct n as [[]|[]|]; cbn in I; try easy; try (apply in_map_iff in I as ([] & ? & _); discriminate);
      intuition (try discriminate). destruct e0; cbn in I; intuition discriminate.
Qed.
Print Assumptions C85_ends.

(** The edges from a vertex are drawn once, and in the order of the script. *)
Theorem C85_order : forall debug leaf_of symbol types flow uses cfg use source root l n,
  tree_graph debug leaf_of symbol types flow uses cfg use source root = Some l ->
  NoDup (block_vertices root) -> inside_of root n -> targets l (vertex n) = map vertex (connected n).
Proof.
  intros debug leaf_of symbol types flow uses cfg use source root l n E N In_.
  apply parts in E as (d & t & f & u & -> & Ed & Et & Ef & Eu).
  assert (Z : forall k, (forall x, In x k -> match x with Edge _ _ => False | _ => True end) -> targets k (vertex n) = []).
  { intros k H. unfold targets. induction k as [|x k IH]; [reflexivity|]. cbn [flat_map]. rewrite IH by (intros y Iy; apply H; cbn; auto).
    pose proof (H x (or_introl eq_refl)). destruct x; easy. }
  rewrite !targets_app, (Z d), (Z f), (Z u), !app_nil_r; cbn [app].
  - apply (visit_targets _ _ _ _ _ _ _ _ _ Et); [|apply inside_below; exact In_].
    intros v. apply (NoDup_count_occ Nat.eq_dec). exact N.
  - intros x H. eapply visit_kind_if in Eu as [_ K]; eauto. destruct x; easy.
  - intros x H. eapply visit_kind_if in Ef as [_ K]; eauto. destruct x; easy.
  - intros x H. eapply visit_kind in Ed as K; eauto. destruct x; easy.
Qed.
Print Assumptions C85_order.

(** Every scope has a cluster, in those of the scopes around it and with the name of the function or
    the script it is in; all clusters are closed. *)
Theorem C85_clusters : forall debug leaf_of symbol types flow uses cfg use source root l,
  tree_graph debug leaf_of symbol types flow uses cfg use source root = Some l ->
  still_open l [] = Some [] /\
  forall clusters v name, In (clusters, Opens v name) (located l []) <->
    exists b, found source root name (v :: clusters) (OfBlock b) /\ v = block_id b.
Proof.
  intros debug leaf_of symbol types flow uses cfg use source root l E.
  split; [destruct (located_whole _ _ _ _ _ _ _ _ _ _ _ ([], Closes) E) as (t & _ & H & _); exact H|].
  intros clusters v name. destruct (located_whole _ _ _ _ _ _ _ _ _ _ _ (clusters, Opens v name) E) as (t & Et & _ & H).
  rewrite (H I), (visit_opens _ _ _ _ _ _ _ _ _ _ _ _ _ Et). reflexivity.
Qed.
Print Assumptions C85_clusters.

(** ** Control flow and uses *)

Theorem C85_flow : forall debug leaf_of symbol types flow uses cfg use source root l,
  tree_graph debug leaf_of symbol types flow uses cfg use source root = Some l ->
  forall v w, In (FlowEdge v w) l <->
    cfg = true /\ In w (successors flow v) /\ exists n, inside_of root n /\ v = vertex n /\ flows n = true.
Proof.
  intros debug leaf_of symbol types flow uses cfg use source root l E v w. rewrite (in_whole _ _ _ _ _ _ _ _ _ _ _ _ E). split.
  - intros (m & name & s & d & u & C & _ & A & [[Eo H]|H]).
    + pose proof (own_kind _ _ _ _ _ _ _ _ _ _ _ Eo H) as K. destruct m; try easy.
      apply (own_flow _ _ _ _ _ _ _ _ _ _ _ Eo) in H as (-> & F & S). repeat split; auto.
      exists d. split; [eapply found_inside; eauto|auto].
    + pose proof (closing_kind _ _ _ H) as K. destruct m; try easy. destruct d; easy.
  - intros (-> & S & n & I & -> & F). destruct (inside_found source root n I) as (name & s & A).
    destruct (own_always debug leaf_of symbol types flow uses ConnectingCfg name n) as (u & Eo); [discriminate|].
    exists ConnectingCfg, name, s, n, u. repeat split; try discriminate; auto. left. split; [exact Eo|].
    apply (own_flow _ _ _ _ _ _ _ _ _ _ _ Eo). auto.
Qed.
Print Assumptions C85_flow.

Theorem C85_uses : forall debug leaf_of symbol types flow uses cfg use source root l,
  tree_graph debug leaf_of symbol types flow uses cfg use source root = Some l ->
  forall v w, In (UseEdge v w) l <->
    use = true /\ In w (uses v) /\ exists n, inside_of root n /\ v = vertex n /\ is_name leaf_of n = true.
Proof.
  intros debug leaf_of symbol types flow uses cfg use source root l E v w. rewrite (in_whole _ _ _ _ _ _ _ _ _ _ _ _ E). split.
  - intros (m & name & s & d & u & _ & C & A & [[Eo H]|H]).
    + pose proof (own_kind _ _ _ _ _ _ _ _ _ _ _ Eo H) as K. destruct m; try easy.
      apply (own_uses _ _ _ _ _ _ _ _ _ _ _ Eo) in H as (-> & F & S). repeat split; auto.
      exists d. split; [eapply found_inside; eauto|auto].
    + pose proof (closing_kind _ _ _ H) as K. destruct m; try easy. destruct d; easy.
  - intros (-> & S & n & I & -> & F). destruct (inside_found source root n I) as (name & s & A).
    destruct (own_always debug leaf_of symbol types flow uses ConnectingUses name n) as (u & Eo); [discriminate|].
    exists ConnectingUses, name, s, n, u. repeat split; try discriminate; auto. left. split; [exact Eo|].
    apply (own_uses _ _ _ _ _ _ _ _ _ _ _ Eo). auto.
Qed.
Print Assumptions C85_uses.

(** ** When no graph is made: a debug build aborts if an expression has several types. *)
Theorem C85_aborts : forall debug leaf_of symbol types flow uses cfg use source root,
  tree_graph debug leaf_of symbol types flow uses cfg use source root = None <->
  debug = true /\ exists n, inside_of root n /\ has_type leaf_of n = true /\ 1 < length (types (vertex n)).
Proof.
  intros debug leaf_of symbol types flow uses cfg use source root. unfold tree_graph.
  assert (V : forall m, visit_block (visit_stmt debug leaf_of symbol types flow uses m source) m source root =
    visit_node debug leaf_of symbol types flow uses m source (OfBlock root)) by reflexivity.
  assert (S : forall v, several types v = true <-> 1 < length (types v)).
  { intros v. unfold several. destruct (types v) as [|a [|b k]]; cbn [length]; split; intros; try discriminate; try lia; reflexivity. }
  assert (X : forall m (b : bool), m <> Declaring ->
    (if b then visit_block (visit_stmt debug leaf_of symbol types flow uses m source) m source root else Some []) <> None).
  { intros m [|] N H; [|discriminate]. rewrite V in H. apply visit_none in H. destruct H as (? & _). contradiction. }
  rewrite !join_none, !V, !visit_none. split.
  - intros [H|[H|[H|H]]].
    + destruct H as (_ & D & d & B & T & K). split; [exact D|]. exists d. rewrite inside_below, <- S. auto.
    + destruct H as (? & _). discriminate.
    + exfalso. apply (X ConnectingCfg cfg); [discriminate|exact H].
    + exfalso. apply (X ConnectingUses use); [discriminate|exact H].
  - intros (D & n & I & T & K). left. repeat split; auto. exists n. rewrite <- inside_below, S. auto.
Qed.
Print Assumptions C85_aborts.

(** ** Examples *)

Ltac find := first [left; reflexivity | right; find].
Ltac absent H := repeat (destruct H as [H|H]; [discriminate H|]); destruct H.

(** [def f(a): return a;  if x: y = (x).m else: f(1)], threaded *)
Definition script_ : block tstmt :=
  Block 1 2 [Definition_ 3 "f" [4] (Block 5 6 [Return 7 (Some (Leaf 8))]);
             Choice 9 10 (Leaf 11) (Block 12 13 [Assignment 14 (Leaf 15) (Member 16 (Leaf 17))])
                                   (Block 18 19 [Expression (Call 20 "f" [Leaf 21])])].
Definition leaf_in (v : nat) : leaf := if v =? 21 then NumberLeaf "1" else if v =? 15 then NameLeaf "y" else NameLeaf "x".
Definition type_in (v : nat) : list (string * string) := if v =? 21 then [("Scalar", "Int64")]%string else [].
Definition threaded : links := match thread_module (Module_ 0 script_) [] with Some g => g | None => [] end.

Example C85_case : exists l,
  tree_graph true leaf_in (fun _ => EmptyString) type_in threaded (fun v => if v =? 15 then [17] else []) true true "script" script_ = Some l /\
  NoDup (block_vertices script_) /\ thread_module (Module_ 0 script_) [] <> None /\
  In (Vertex 21 "1\ndt: Scalar\nvt: Int64") l /\ In ([12; 1], Edge 14 15) (located l []) /\
  In ([1], Opens 5 "f") (located l []) /\ In ([1], Opens 12 "script") (located l []) /\
  targets l 14 = [15; 16] /\ In (FlowEdge 20 3) l /\ In (UseEdge 15 17) l.
Proof.
  eexists. split; [vm_compute; reflexivity|]. split.
  { assert (X : forall l, (if existsb (fun v => negb (count_occ Nat.eq_dec l v <=? 1)) l then false else true) = true -> NoDup l).
    { intros l H. apply (NoDup_count_occ Nat.eq_dec). intros v. destruct (existsb _ l) eqn:Q; [discriminate|].
      destruct (in_dec Nat.eq_dec v l) as [I|I].
      - destruct (count_occ Nat.eq_dec l v <=? 1) eqn:K; [apply Nat.leb_le; exact K|].
        assert (existsb (fun v => negb (count_occ Nat.eq_dec l v <=? 1)) l = true); [|congruence].
        apply existsb_exists. exists v. rewrite K. auto.
      - apply (count_occ_not_In Nat.eq_dec) in I. rewrite I. auto. }
    apply X. vm_compute. reflexivity. }
  split; [vm_compute; discriminate|]. cbn [located targets flat_map app Nat.eqb tl].
  split; [find|]. split; [find|]. split; [find|]. split; [find|]. split; [reflexivity|]. split; [find|find].
Qed.
Example C85_several : exists root, tree_graph true leaf_in (fun _ => EmptyString) (fun _ => [("a", "b"); ("c", "d")]%string) [] (fun _ => []) false false "script" root = None.
Proof. exists script_. reflexivity. Qed.

(** ** What is not shown *)

(** There is a script whose tree is not connected in the graph: there is no edge from an if statement
    to its scopes, and none from a function definition. *)
Theorem C85_tree_refuted : ~ (forall debug leaf_of symbol types flow uses cfg use source root l n c,
  tree_graph debug leaf_of symbol types flow uses cfg use source root = Some l ->
  inside_of root n -> In c (children n) -> In (Edge (vertex n) (vertex c)) l).
Proof.
  intros H. set (d := Definition_ 3 "f" [4] (Block 5 6 [Return 7 (Some (Leaf 8))])).
  assert (E : exists l, tree_graph true leaf_in (fun _ => EmptyString) type_in [] (fun _ => []) false false EmptyString script_ = Some l /\
    targets l 3 = []) by (eexists; split; vm_compute; reflexivity).
  destruct E as (l & E & T).
  assert (I : inside_of script_ (OfStmt d)).
  { exists EmptyString, EmptyString, [1]. econstructor; [cbn; left; reflexivity|]. constructor. }
  specialize (H _ _ _ _ _ _ _ _ _ _ _ _ _ E I (or_introl eq_refl)).
  assert (X : In 5 (targets l 3)); [|rewrite T in X; exact X].
  unfold targets. apply in_flat_map. eexists. split; [exact H|]. cbn. auto.
Qed.
Print Assumptions C85_tree_refuted.

(** Attributes are not declared, although edges lead to them. *)
Theorem C85_attribute_refuted : ~ (forall debug leaf_of symbol types flow uses cfg use source root l v w,
  tree_graph debug leaf_of symbol types flow uses cfg use source root = Some l ->
  In (Edge v w) l -> In w (shown l)).
Proof.
  intros H.
  assert (E : exists l, tree_graph true leaf_in (fun _ => EmptyString) type_in [] (fun _ => []) false false EmptyString script_ = Some l /\
    In (Edge 14 16) l /\ ~ In 16 (shown l)).
  { eexists. split; [vm_compute; reflexivity|]. split; [find|]. vm_compute. intros X. absent X. }
  destruct E as (l & E & I & N). apply N. eapply H; eauto.
Qed.
Print Assumptions C85_attribute_refuted.

(** The flow that threading finds is not shown from if statements, scopes and function definitions:
    there is a run of a script that the graph does not show. *)
Theorem C85_flow_refuted : ~ (forall debug leaf_of symbol types flow uses use source i root l v w,
  thread_module (Module_ i root) [] = Some flow ->
  tree_graph debug leaf_of symbol types flow uses true use source root = Some l ->
  In v (shown l) -> In w (shown l) -> In w (successors flow v) -> In (FlowEdge v w) l).
Proof.
  intros H.
  assert (E : exists l, tree_graph true leaf_in (fun _ => EmptyString) type_in threaded (fun _ => []) true false EmptyString script_ = Some l /\
    In 9 (shown l) /\ In 12 (shown l) /\ ~ In (FlowEdge 9 12) l).
  { eexists. split; [vm_compute; reflexivity|]. split; [vm_compute; find|]. split; [vm_compute; find|]. intros X. absent X. }
  destruct E as (l & E & I & J & N). apply N. eapply (H _ _ _ _ threaded _ _ _ 0); eauto.
  - vm_compute. reflexivity.
  - vm_compute. auto.
Qed.
Print Assumptions C85_flow_refuted.
