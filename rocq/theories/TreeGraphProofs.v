(** * Graphs of syntax trees: proofs *)
From Coq Require Import String List Bool Arith Lia.
From Verif Require Import AstModel ThreadModel ThreadSpec ThreadProofs TreeGraphModel TreeGraphSpec.
Import ListNotations.

(** ** Induction on trees *)

Lemma node_induction (P : node -> Prop) : (forall n, (forall c, In c (children n) -> P c) -> P n) -> forall n, P n.
Proof.
  intros H.
  assert (HE : forall e, P (OfExpr e)).
  { induction e using texpr_induction; apply H; cbn [children]; intros c I.
    - easy.
    - apply in_map_iff in I as (a & <- & I). rewrite Forall_forall in *. auto.
    - apply in_map_iff in I as (a & <- & I). rewrite Forall_forall in *. auto.
    - destruct I as [<-|[<-|[]]]; auto.
    - destruct I as [<-|[]]; auto. }
  assert (HB : forall b, Forall (fun x => P (statement x)) (block_statements b) -> P (OfBlock b)).
  { intros b F. apply H. cbn [children]. intros c I. apply in_map_iff in I as (x & <- & I).
    rewrite Forall_forall in F. auto. }
  assert (HS : forall x, P (statement x)).
  { induction x using tstmt_induction; cbn [statement].
    all: try apply HE.
    all: apply H; cbn [children]; intros d I.
    all: repeat match goal with
         | I : In _ (match ?o with Some _ => _ | None => _ end) |- _ => destruct o
         | I : In _ (_ :: _) |- _ => destruct I as [<-|I]
         | I : In _ [] |- _ => destruct I
         end; auto. }
  intros [e|x|b]; [apply HE| |].
  - destruct x as [e| | | | |] eqn:E; try (rewrite <- E; specialize (HS x); rewrite E in *; exact HS).
    apply H. cbn [children]. intros c [<-|[]]. apply HE.
  - apply HB. apply Forall_forall. intros x _. apply HS.
Qed.

Section Proofs.
Variable debug : bool.
Variables (leaf_of : nat -> leaf) (symbol : nat -> string).
Variable types : nat -> list (string * string).
Variables (flow : links) (uses : nat -> list nat).

Local Notation visit_expr := (visit_expr debug leaf_of symbol types flow uses).
Local Notation visit_stmt := (visit_stmt debug leaf_of symbol types flow uses).
Local Notation own_expr := (own_expr debug leaf_of symbol types flow uses).
Local Infix "+++" := join (at level 60, right associativity).

(** ** All vertices alike *)

Definition visit_node (m : graph_mode) (name : string) (n : node) : option (list line) :=
  match n with
  | OfExpr e => visit_expr m e
  | OfStmt x => visit_stmt m name x
  | OfBlock b => visit_block (visit_stmt m name) m name b
  end.
Definition own (m : graph_mode) (name : string) (n : node) : option (list line) :=
  match n with
  | OfExpr e => own_expr m e
  | OfStmt x =>
      Some match x with
      | Expression _ => []
      | Assignment i target e =>
          match m with
          | Declaring => [Vertex i "="]
          | ConnectingAst => tree_edges i [expr_vertex target; expr_vertex e]
          | ConnectingCfg => flow_edges flow i
          | ConnectingUses => []
          end
      | Return i e =>
          match m with
          | Declaring => [Vertex i "return"]
          | ConnectingAst => match e with Some e => tree_edges i [expr_vertex e] | None => [] end
          | _ => []
          end
      | Choice i _ c _ _ =>
          match m with Declaring => [Vertex i "If"] | ConnectingAst => tree_edges i [expr_vertex c] | _ => [] end
      | Loop i c _ _ =>
          match m with Declaring => [Vertex i "While"] | ConnectingAst => tree_edges i [expr_vertex c] | _ => [] end
      | Definition_ i f _ _ => match m with Declaring => [Vertex i f] | _ => [] end
      end
  | OfBlock b =>
      Some match m with
      | Declaring => [Vertex (block_id b) "scope"]
      | ConnectingAst => Opens (block_id b) name :: tree_edges (block_id b) (map stmt_vertex (block_statements b))
      | _ => []
      end
  end.
Definition closing (m : graph_mode) (n : node) : list line :=
  match n with
  | OfBlock b =>
      match m with Declaring => [Vertex (block_sentinel b) "sentinel"] | ConnectingAst => [Closes] | _ => [] end
  | _ => []
  end.
(** The order in which children are visited *)
Definition visited (n : node) : list node :=
  match n with OfStmt (Assignment _ t e) => [OfExpr e; OfExpr t] | _ => children n end.
Lemma visited_children n c : In c (visited n) <-> In c (children n).
Proof.
  destruct n as [e|[]|b]; cbn [visited children]; try tauto. cbn [In]. tauto.
Qed.

Lemma join_nil a : a +++ Some [] = a.
Proof. destruct a; [|easy]. cbn [join]. rewrite app_nil_r. reflexivity. Qed.
Lemma nil_join a : Some [] +++ a = a.
Proof. destruct a; reflexivity. Qed.
Lemma joined_map {X Y} (f : Y -> option (list line)) (g : X -> Y) l : joined f (map g l) = joined (fun x => f (g x)) l.
Proof. induction l as [|x l IH]; [reflexivity|]. cbn [joined map]. rewrite IH. reflexivity. Qed.
Lemma joined_ext {X} (f g : X -> option (list line)) l : (forall x, f x = g x) -> joined f l = joined g l.
Proof. intros H. induction l as [|x l IH]; [reflexivity|]. cbn [joined]. rewrite H, IH. reflexivity. Qed.

Lemma visit_node_eq m name n :
  visit_node m name n = own m name n +++ joined (visit_node m (name_below n name)) (visited n) +++ Some (closing m n).
Proof.
  destruct n as [e|x|b]; cbn [visit_node own closing].
  - destruct e; cbn [visited children name_below joined TreeGraphModel.visit_expr]; rewrite ?joined_map, ?join_nil; reflexivity.
  - destruct x as [e|i t e|i [e|]|i k c t f|i c t f|i g args b]; cbn [visited children name_below joined TreeGraphModel.visit_stmt];
      rewrite ?join_nil, ?nil_join; reflexivity.
  - unfold visit_block. cbn [visited children name_below]. rewrite joined_map. f_equal. f_equal. apply joined_ext.
    intros x. destruct x; reflexivity.
Qed.

(** ** Joining *)

Lemma join_some a b l : a +++ b = Some l <-> exists u v, a = Some u /\ b = Some v /\ l = u ++ v.
Proof.
  split.
  - destruct a, b; cbn [join]; try discriminate. injection 1 as <-. eauto.
  - intros (u & v & -> & -> & ->). reflexivity.
Qed.
Lemma join_none a b : a +++ b = None <-> a = None \/ b = None.
Proof. destruct a, b; cbn [join]; split; intuition discriminate. Qed.
Lemma joined_none {X} (f : X -> option (list line)) l : joined f l = None <-> exists x, In x l /\ f x = None.
Proof.
  induction l as [|x l IH]; cbn [joined].
  - split; [discriminate|intros (x & [] & _)].
  - rewrite join_none, IH. cbn [In]. split.
    + intros [H|(y & I & H)]; eauto.
    + intros (y & [<-|I] & H); eauto.
Qed.
Lemma joined_in {X} (f : X -> option (list line)) l r a : joined f l = Some r ->
  (In a r <-> exists x u, In x l /\ f x = Some u /\ In a u).
Proof.
  revert r. induction l as [|x l IH]; intros r; cbn [joined].
  - injection 1 as <-. cbn [In]. split; [easy|intros (x & u & [] & _)].
  - intros E. apply join_some in E as (u & v & Ex & El & ->). rewrite in_app_iff, (IH _ El). cbn [In]. split.
    + intros [H|(y & w & I & H)]; [exists x, u; auto|exists y, w; tauto].
    + intros (y & w & [<-|I] & E & H); [left; congruence|right; eauto].
Qed.
Lemma joined_each {X} (f : X -> option (list line)) l r x : joined f l = Some r -> In x l -> exists u, f x = Some u.
Proof.
  intros E I. destruct (f x) eqn:F; [eauto|]. exfalso.
  assert (joined f l = None) by (apply joined_none; eauto). congruence.
Qed.

(** ** Where a vertex is: a tree is looked at without names and scopes *)

Lemma around_any name l n name' l' d : around name l n name' l' d ->
  forall name2 l2, exists name3 l3, around name2 l2 n name3 l3 d.
Proof.
  induction 1 as [name l n|name l n c name' l' d I _ IH]; intros name2 l2.
  - exists name2, l2. constructor.
  - destruct (IH (name_below n name2) (scope_of c ++ l2)) as (n3 & l3 & H). exists n3, l3. econstructor; eauto.
Qed.
Definition below (n d : node) : Prop := exists name l name' l', around name l n name' l' d.
Lemma below_step n d : below n d <-> d = n \/ exists c, In c (visited n) /\ below c d.
Proof.
  split.
  - intros (a & l & a' & l' & H). inversion H as [|? ? ? c ? ? ? I H']; subst; [auto|].
    right. exists c. rewrite visited_children. split; [exact I|]. unfold below. eauto.
  - intros [->|(c & I & a & l & a' & l' & H)].
    + exists EmptyString, [], EmptyString, []. constructor.
    + rewrite visited_children in I. destruct (around_any _ _ _ _ _ _ H (name_below n EmptyString) (scope_of c ++ [])) as (n3 & l3 & H').
      exists EmptyString, [], n3, l3. econstructor; eauto.
Qed.
Lemma around_below name l n d : (exists name' l', around name l n name' l' d) <-> below n d.
Proof.
  split; [intros (a & b & H); unfold below; eauto|]. intros (a & b & a' & b' & H). eapply around_any; eauto.
Qed.
Lemma inside_below root d : inside_of root d <-> below (OfBlock root) d.
Proof.
  unfold inside_of, found. split.
  - intros (s & a & l & H). unfold below. eauto.
  - intros H. exists EmptyString. apply (proj2 (around_below EmptyString [block_id root] (OfBlock root) d)). exact H.
Qed.

(** ** Failed assertions *)

Definition several (v : nat) : bool := match types v with _ :: _ :: _ => true | _ => false end.
Lemma label_none name v : expression_label debug types name v = None <-> debug = true /\ several v = true.
Proof.
  unfold expression_label, several. destruct (types v) as [|[d t] [|p more]].
  - split; intuition discriminate.
  - rewrite andb_false_r. split; intuition discriminate.
  - rewrite andb_true_r. destruct debug; split; intuition discriminate.
Qed.
Lemma label_some name v l : expression_label debug types name v = Some l -> l = with_type types name v.
Proof.
  unfold expression_label, with_type. destruct (types v) as [|[d t] more]; [injection 1 as <-; reflexivity|].
  destruct (_ && _); [discriminate|]. injection 1 as <-. cbn [append]. reflexivity.
Qed.
Lemma own_none m name n : own m name n = None <->
  m = Declaring /\ debug = true /\ has_type leaf_of n = true /\ several (vertex n) = true.
Proof.
  destruct n as [e|x|b]; cbn [own has_type].
  - assert (V : forall i o, vertex_line i o = None <-> o = None) by (intros i []; cbn; split; congruence).
    destruct e as [i|i name' l|i l|i a b|i a]; cbn [TreeGraphModel.own_expr vertex expr_vertex]; destruct m.
    all: try destruct (leaf_of i).
    all: rewrite ?V, ?label_none; split; intuition (congruence || discriminate || tauto).
  - split; intuition discriminate.
  - split; intuition discriminate.
Qed.
Lemma visit_none m n : forall name, visit_node m name n = None <->
  m = Declaring /\ debug = true /\ exists d, below n d /\ has_type leaf_of d = true /\ several (vertex d) = true.
Proof.
  induction n as [n IH] using node_induction. intros name. rewrite visit_node_eq, !join_none, own_none, joined_none.
  split.
  - intros [(? & ? & ? & ?)|[(c & I & H)|H]]; [| |discriminate].
    + repeat split; auto. exists n. rewrite below_step. auto.
    + rewrite (IH c (proj1 (visited_children n c) I)) in H. destruct H as (? & ? & d & B & ?). repeat split; auto.
      exists d. rewrite below_step. split; eauto.
  - intros (-> & D & d & B & T & S). rewrite below_step in B. destruct B as [->|(c & I & B)]; [auto|].
    right. left. exists c. split; [exact I|]. rewrite (IH c (proj1 (visited_children n c) I)). repeat split; eauto.
Qed.

(** ** Lines of one kind *)

(** The lines that vertices add themselves are those of the whole tree, apart from those that close. *)
Lemma visit_in m n x : forall name l, visit_node m name n = Some l ->
  (In x l <-> exists d name' scopes u, around name [] n name' scopes d /\ ((own m name' d = Some u /\ In x u) \/ In x (closing m d))).
Proof.
  induction n as [n IH] using node_induction. intros name l E. rewrite visit_node_eq in E.
  apply join_some in E as (u & r & Eo & E & ->). apply join_some in E as (w & v & Ej & Ec & ->). injection Ec as <-.
  rewrite !in_app_iff, (joined_in _ _ _ _ Ej). split.
  - intros [H|[(c & q & I & E & H)|H]].
    + exists n, name, [], u. split; [constructor|auto].
    + rewrite (IH c (proj1 (visited_children n c) I) _ _ E) in H. destruct H as (d & name' & s & z & A & H).
      exists d. assert (X : exists s', around name [] n name' s' d).
      { assert (Y : forall name l n name' l' d, around name l n name' l' d -> forall l2, exists l3, around name l2 n name' l3 d).
        { clear. induction 1 as [name l n|name l n c name' l' d I _ IH]; intros l2; [exists l2; constructor|].
          destruct (IH (scope_of c ++ l2)) as (l3 & H). exists l3. econstructor; eauto. }
        destruct (Y _ _ _ _ _ _ A (scope_of c ++ [])) as (l3 & A'). exists l3. econstructor; [|exact A'].
        apply visited_children. exact I. }
      destruct X as (s' & A'). exists name', s', z. auto.
    + exists n, name, [], u. split; [constructor|auto].
  - intros (d & name' & s & z & A & H). inversion A as [|? ? ? c ? ? ? I A']; subst.
    + destruct H as [[E H]|H]; [|auto]. left. congruence.
    + right. left. rewrite <- visited_children in I. destruct (joined_each _ _ _ _ Ej I) as (q & E).
      exists c, q. repeat split; auto. rewrite (IH c (proj1 (visited_children n c) I) _ _ E).
      assert (Y : forall name l n name' l' d, around name l n name' l' d -> forall l2, exists l3, around name l2 n name' l3 d).
      { clear. induction 1 as [name l n|name l n c name' l' d I _ IH]; intros l2; [exists l2; constructor|].
        destruct (IH (scope_of c ++ l2)) as (l3 & H). exists l3. econstructor; eauto. }
      destruct (Y _ _ _ _ _ _ A' []) as (l3 & A''). exists d, name', l3, z. auto.
Qed.

(** ** Edges of the tree, in their clusters *)

Definition opening (name : string) (n : node) : list line := match n with OfBlock b => [Opens (block_id b) name] | _ => [] end.
Definition edges_from (n : node) : list line := map (fun c => Edge (vertex n) (vertex c)) (connected n).
Lemma own_ast name n : own ConnectingAst name n = Some (opening name n ++ edges_from n).
Proof.
  unfold edges_from. destruct n as [e|x|b]; cbn [own opening app].
  - destruct e; cbn [TreeGraphModel.own_expr connected children vertex expr_vertex map]; unfold tree_edges; rewrite ?map_map; reflexivity.
  - destruct x as [e|i t e|i [e|]|i k c t f|i c t f|i g args b]; reflexivity.
  - cbn [connected children vertex]. unfold tree_edges. rewrite !map_map. do 2 f_equal.
    apply map_ext. intros []; reflexivity.
Qed.

(** Lines that leave the clusters as they are *)
Definition quiet (l : list line) : Prop :=
  (forall rest st, located (l ++ rest) st = located l st ++ located rest st) /\
  (forall rest st, still_open (l ++ rest) st = still_open rest st).
Lemma quiet_nil : quiet [].
Proof. split; reflexivity. Qed.
Lemma quiet_app a b : quiet a -> quiet b -> quiet (a ++ b).
Proof.
  intros [A A'] [B B']. split; intros rest st; rewrite <- app_assoc.
  - rewrite !A, B, app_assoc. reflexivity.
  - rewrite A', B'. reflexivity.
Qed.
Lemma quiet_edges v (l : list node) : quiet (map (fun c => Edge v (vertex c)) l).
Proof.
  split; intros rest st; induction l as [|c l IH]; cbn [map app located still_open]; try reflexivity; rewrite IH; reflexivity.
Qed.
Lemma located_edges v (l : list node) st : located (map (fun c => Edge v (vertex c)) l) st = map (fun c => (st, Edge v (vertex c))) l.
Proof. induction l as [|c l IH]; [reflexivity|]. cbn [map located]. rewrite IH. reflexivity. Qed.
Lemma quiet_joined {X} (f : X -> option (list line)) l r : joined f l = Some r ->
  (forall x u, In x l -> f x = Some u -> quiet u) -> quiet r.
Proof.
  revert r. induction l as [|x l IH]; intros r E H; cbn [joined] in E.
  - injection E as <-. apply quiet_nil.
  - apply join_some in E as (u & v & Ex & El & ->). apply quiet_app; [apply (H x); cbn; auto|].
    apply (IH _ El). intros y w I. apply H. cbn. auto.
Qed.
Lemma located_joined {X} (f : X -> option (list line)) l r y st : joined f l = Some r ->
  (forall x u, In x l -> f x = Some u -> quiet u) ->
  (In y (located r st) <-> exists x u, In x l /\ f x = Some u /\ In y (located u st)).
Proof.
  revert r. induction l as [|x l IH]; intros r E H; cbn [joined] in E.
  - injection E as <-. cbn. split; [easy|intros (x & u & [] & _)].
  - apply join_some in E as (u & v & Ex & El & ->).
    rewrite (proj1 (H x u (or_introl eq_refl) Ex)), in_app_iff, (IH v El); [|intros z w I; apply H; cbn; auto].
    cbn [In]. split.
    + intros [I|(z & w & I & I')]; [exists x, u; auto|exists z, w; tauto].
    + intros (z & w & [<-|I] & E & I'); [left; congruence|right; eauto].
Qed.

(** Where the lines of a vertex are *)
Lemma visit_quiet n : forall name l, visit_node ConnectingAst name n = Some l -> quiet l.
Proof.
  induction n as [n IH] using node_induction. intros name l E. rewrite visit_node_eq, own_ast in E.
  apply join_some in E as (u & r & Eo & E & ->). apply join_some in E as (w & v & Ej & Ec & ->).
  injection Eo as <-. injection Ec as <-.
  assert (W : quiet (edges_from n ++ w)).
  { apply quiet_app; [apply quiet_edges|]. apply (quiet_joined _ _ _ Ej). intros c q I. apply (IH c).
    apply visited_children. exact I. }
  rewrite <- app_assoc, (app_assoc (edges_from n)).
  destruct n as [e|x|b]; cbn [opening closing app]; try (rewrite app_nil_r; exact W).
  destruct W as [W W']. split; intros rest st; cbn [located still_open app]; rewrite <- app_assoc.
  - rewrite !W. cbn [located app tl]. rewrite <- app_assoc. reflexivity.
  - rewrite W'. reflexivity.
Qed.
Lemma visit_located n : forall name l st y, visit_node ConnectingAst name n = Some l ->
  (In y (located l st) <->
   In y (map (pair st) (opening name n)) \/ In y (map (pair (scope_of n ++ st)) (edges_from n)) \/
   (exists c u, In c (visited n) /\ visit_node ConnectingAst (name_below n name) c = Some u /\ In y (located u (scope_of n ++ st))) \/
   In y (map (pair (scope_of n ++ st)) (closing ConnectingAst n))).
Proof.
  intros name l st y E. rewrite visit_node_eq, own_ast in E.
  apply join_some in E as (u & r & Eo & E & ->). apply join_some in E as (w & v & Ej & Ec & ->).
  injection Eo as <-. injection Ec as <-.
  assert (Q : forall x u, In x (visited n) -> visit_node ConnectingAst (name_below n name) x = Some u -> quiet u)
    by (intros; eapply visit_quiet; eauto).
  assert (L : forall z st, In z (located w st) <->
    exists c u, In c (visited n) /\ visit_node ConnectingAst (name_below n name) c = Some u /\ In z (located u st))
    by (intros; apply (located_joined _ _ _ _ _ Ej Q)).
  pose proof (quiet_joined _ _ _ Ej Q) as Qw.
  assert (ME : map (pair (scope_of n ++ st)) (edges_from n) = located (edges_from n) (scope_of n ++ st)).
  { unfold edges_from. rewrite located_edges, map_map. reflexivity. }
  rewrite ME, <- L. rewrite <- app_assoc.
  pose proof (quiet_edges (vertex n) (connected n)) as QE. fold (edges_from n) in QE.
  destruct n as [e|x|b]; cbn [opening closing app map scope_of located In];
    rewrite (proj1 QE), (proj1 Qw), !in_app_iff; cbn [located In]; tauto.
Qed.
Lemma visit_edges n : forall name l st st' v w, visit_node ConnectingAst name n = Some l ->
  (In (st', Edge v w) (located l st) <->
   exists d name', around name (scope_of n ++ st) n name' st' d /\ v = vertex d /\ In w (map vertex (connected d))).
Proof.
  induction n as [n IH] using node_induction. intros name l st st' v w E. rewrite (visit_located _ _ _ _ _ E). split.
  - intros [H|[H|[(c & u & I & Eu & H)|H]]].
    + destruct n; cbn in H; intuition discriminate.
    + apply in_map_iff in H as (x & P & I). apply in_map_iff in I as (c & <- & I). injection P as <- <- <-.
      exists n, name. repeat split; [constructor|]. apply in_map. exact I.
    + pose proof (proj1 (visited_children n c) I) as I'. rewrite (IH c I' _ _ _ _ _ _ Eu) in H.
      destruct H as (d & name' & A & H). exists d, name'. split; [|exact H]. econstructor; eauto.
    + destruct n; cbn in H; intuition discriminate.
  - intros (d & name' & A & -> & I). inversion A as [|? ? ? c ? ? ? Ic A']; subst.
    + right. left. apply in_map_iff in I as (c & <- & I). apply in_map_iff. eexists. split; [reflexivity|].
      apply in_map_iff. eauto.
    + right. right. left. pose proof (proj2 (visited_children n c) Ic) as Ic'.
      assert (X : exists u, visit_node ConnectingAst (name_below n name) c = Some u).
      { destruct (visit_node ConnectingAst (name_below n name) c) eqn:V; [eauto|].
        apply visit_none in V. destruct V as (? & _). discriminate. }
      destruct X as (u & Eu). exists c, u. repeat split; auto. rewrite (IH c Ic _ _ _ _ _ _ Eu). eauto.
Qed.
Lemma visit_opens n : forall name l st st' v x, visit_node ConnectingAst name n = Some l ->
  (In (st', Opens v x) (located l st) <->
   exists b, around name (scope_of n ++ st) n x (v :: st') (OfBlock b) /\ v = block_id b).
Proof.
  induction n as [n IH] using node_induction. intros name l st st' v x E. rewrite (visit_located _ _ _ _ _ E). split.
  - intros [H|[H|[(c & u & I & Eu & H)|H]]].
    + destruct n as [| |b]; cbn in H; try easy. destruct H as [H|[]]. injection H as <- <- <-. exists b.
      split; [constructor|reflexivity].
    + apply in_map_iff in H as (z & P & I). apply in_map_iff in I as (c & <- & I). discriminate.
    + pose proof (proj1 (visited_children n c) I) as I'. rewrite (IH c I' _ _ _ _ _ _ Eu) in H.
      destruct H as (b & A & H). exists b. split; [|exact H]. econstructor; eauto.
    + destruct n; cbn in H; intuition discriminate.
  - intros (b & A & ->). inversion A as [|? ? ? c ? ? ? Ic A']; subst.
    + left. match goal with H : scope_of _ ++ st = _ |- _ => cbn in H; injection H as <- end. cbn. auto.
    + right. right. left. pose proof (proj2 (visited_children n c) Ic) as Ic'.
      assert (X : exists u, visit_node ConnectingAst (name_below n name) c = Some u).
      { destruct (visit_node ConnectingAst (name_below n name) c) eqn:V; [eauto|].
        apply visit_none in V. destruct V as (? & _). discriminate. }
      destruct X as (u & Eu). exists c, u. repeat split; auto. rewrite (IH c Ic _ _ _ _ _ _ Eu). eauto.
Qed.

(** ** Once *)

Definition node_vertices (n : node) : list nat :=
  match n with
  | OfExpr e => expr_vertices e
  | OfStmt (Expression e) => expr_vertex e :: expr_vertices e
  | OfStmt x => stmt_vertices x
  | OfBlock b => block_vertices b
  end.
Definition sentinel_of (n : node) : list nat := match n with OfBlock b => [block_sentinel b] | _ => [] end.
Definition count : list nat -> nat -> nat := count_occ Nat.eq_dec.
Lemma count_app l k v : count (l ++ k) v = count l v + count k v.
Proof. apply count_occ_app. Qed.
Lemma count_cons a l v : count (a :: l) v = count [a] v + count l v.
Proof. apply (count_app [a] l v). Qed.
Lemma statement_vertices x : node_vertices (statement x) = stmt_vertices x.
Proof. destruct x; reflexivity. Qed.
Lemma flat_map_map {X Y Z} (f : Y -> list Z) (g : X -> Y) l : flat_map f (map g l) = flat_map (fun x => f (g x)) l.
Proof. induction l as [|x l IH]; [reflexivity|]. cbn. rewrite IH. reflexivity. Qed.
Lemma count_node n v :
  count [vertex n] v + count (flat_map node_vertices (visited n)) v + count (sentinel_of n) v <= count (node_vertices n) v.
Proof.
  destruct n as [e|x|b].
  - destruct e as [i|i name l|i l|i a b|i a]; cbn [visited children flat_map node_vertices vertex expr_vertex expr_vertices sentinel_of];
      rewrite ?flat_map_map; cbn [node_vertices]; rewrite ?app_nil_r, ?count_app; change (count [] v) with 0; try change (fun x : texpr => expr_vertices x) with expr_vertices; lia.
  - destruct x as [e|i t e|i [e|]|i k c t f|i c t f|i g args b];
      cbn [visited children flat_map node_vertices vertex stmt_vertex stmt_vertices sentinel_of app]; fold block_vertices;
      rewrite ?app_nil_r; repeat rewrite ?count_app, ?(count_cons i (_ ++ _)), ?(count_cons (expr_vertex e) (expr_vertices e));
      change (count [] v) with 0; lia.
  - cbn [visited children node_vertices vertex sentinel_of]. unfold block_vertices, block_vertices_.
    rewrite flat_map_map, (count_cons (block_id b) (_ ++ _)), count_app.
    replace (flat_map (fun x => node_vertices (statement x)) (block_statements b)) with (flat_map stmt_vertices (block_statements b)); [lia|].
    induction (block_statements b) as [|x l IH]; [reflexivity|]. cbn [flat_map]. rewrite statement_vertices, IH. reflexivity.
Qed.
Lemma joined_count {X} (f : X -> option (list line)) (g : line -> list nat) (h : X -> list nat) l r v :
  joined f l = Some r -> (forall x u, In x l -> f x = Some u -> count (flat_map g u) v <= count (h x) v) ->
  count (flat_map g r) v <= count (flat_map h l) v.
Proof.
  revert r. induction l as [|x l IH]; intros r E H; cbn [joined] in E.
  - injection E as <-. reflexivity.
  - apply join_some in E as (u & w & Ex & El & ->). rewrite flat_map_app. cbn [flat_map]. rewrite !count_app.
    pose proof (H x u (or_introl eq_refl) Ex) as H1. pose proof (IH _ El (fun y k I => H y k (or_intror I))) as H2. lia.
Qed.
Definition of_vertex (x : line) : list nat := match x with Vertex v _ => [v] | _ => [] end.
Definition of_opens (x : line) : list nat := match x with Opens v _ => [v] | _ => [] end.
Lemma own_shown name n u : own Declaring name n = Some u ->
  flat_map of_vertex u = match label_of leaf_of symbol types n with Some _ => [vertex n] | None => [] end /\
  (forall v x, In (Vertex v x) u <-> v = vertex n /\ label_of leaf_of symbol types n = Some x).
Proof.
  assert (V : forall i o u, vertex_line i o = Some u -> exists x, o = Some x /\ u = [Vertex i x]).
  { intros i [x|] w; cbn; [|discriminate]. injection 1 as <-. eauto. }
  destruct n as [e|x|b]; cbn [own].
  - destruct e as [i|i name' l|i l|i a b|i a]; cbn [TreeGraphModel.own_expr label_of vertex expr_vertex]; intros E;
      try (apply V in E as (x & E & ->)).
    + destruct (leaf_of i); try (apply label_some in E as ->); try (injection E as <-);
        (split; [reflexivity|]); cbn [In append] in *; intros v y; split; intuition congruence.
    + apply label_some in E as ->. split; [reflexivity|]. cbn [In]; intros v y; split; intuition congruence.
    + apply label_some in E as ->. split; [reflexivity|]. cbn [In]; intros v y; split; intuition congruence.
    + apply label_some in E as ->. split; [reflexivity|]. cbn [In]; intros v y; split; intuition congruence.
    + injection E as <-. split; [reflexivity|]. cbn [In]; intros v y; split; intuition congruence.
  - destruct x as [e|i t e|i [e|]|i k c t f|i c t f|i g args b]; cbn [label_of vertex stmt_vertex]; injection 1 as <-;
      (split; [reflexivity|]); cbn [In]; intros v y; split; intuition congruence.
  - injection 1 as <-. cbn [label_of vertex]. split; [reflexivity|]. cbn [In]; intros v y; split; intuition congruence.
Qed.
Lemma visit_shown_count n v : forall name l, visit_node Declaring name n = Some l ->
  count (flat_map of_vertex l) v <= count (node_vertices n) v.
Proof.
  induction n as [n IH] using node_induction. intros name l E. rewrite visit_node_eq in E.
  apply join_some in E as (u & r & Eo & E & ->). apply join_some in E as (w & k & Ej & Ec & ->). injection Ec as <-.
  rewrite !flat_map_app, !count_app.
  assert (H : count (flat_map of_vertex w) v <= count (flat_map node_vertices (visited n)) v).
  { apply (joined_count _ _ _ _ _ _ Ej). intros c q I. apply IH. apply visited_children. exact I. }
  pose proof (count_node n v) as C. destruct (own_shown _ _ _ Eo) as [-> _].
  assert (K : count (flat_map of_vertex (closing Declaring n)) v = count (sentinel_of n) v) by (destruct n; reflexivity).
  rewrite K. destruct (label_of _ _ _ n); [lia|]. change (count [] v) with 0. lia.
Qed.
Lemma visit_opened_count n v : forall name l, visit_node ConnectingAst name n = Some l ->
  count (flat_map of_opens l) v <= count (node_vertices n) v.
Proof.
  induction n as [n IH] using node_induction. intros name l E. rewrite visit_node_eq, own_ast in E.
  apply join_some in E as (u & r & Eo & E & ->). apply join_some in E as (w & k & Ej & Ec & ->). injection Ec as <-.
  injection Eo as <-. rewrite !flat_map_app, !count_app.
  assert (H : count (flat_map of_opens w) v <= count (flat_map node_vertices (visited n)) v).
  { apply (joined_count _ _ _ _ _ _ Ej). intros c q I. apply IH. apply visited_children. exact I. }
  pose proof (count_node n v) as C.
  assert (K : flat_map of_opens (closing ConnectingAst n) = []) by (destruct n; reflexivity).
  assert (D : flat_map of_opens (edges_from n) = []) by (unfold edges_from; induction (connected n); [reflexivity|auto]).
  rewrite K, D. change (count [] v) with 0.
  assert (O : count (flat_map of_opens (opening name n)) v <= count [vertex n] v).
  { destruct n; cbn [opening flat_map of_opens app vertex]; change (count [] v) with 0; lia. }
  lia.
Qed.

(** ** In order *)

Lemma targets_app a b v : targets (a ++ b) v = targets a v ++ targets b v.
Proof. apply flat_map_app. Qed.
Lemma targets_edges (l : list node) u v : targets (map (fun c => Edge u (vertex c)) l) v = if u =? v then map vertex l else [].
Proof.
  induction l as [|c l IH]; cbn [map]; [destruct (u =? v); reflexivity|].
  unfold targets in *. cbn [flat_map]. rewrite IH. destruct (u =? v); reflexivity.
Qed.
Lemma below_vertices n d : below n d -> In (vertex d) (node_vertices n).
Proof.
  induction n as [n IH] using node_induction. intros B. apply below_step in B.
  assert (X : count [vertex n] (vertex d) + count (flat_map node_vertices (visited n)) (vertex d) > 0).
  { destruct B as [->|(c & I & B)].
    - assert (count [vertex n] (vertex n) > 0) by (apply count_occ_In; cbn; auto). lia.
    - assert (count (flat_map node_vertices (visited n)) (vertex d) > 0); [|lia]. apply count_occ_In, in_flat_map.
      exists c. split; [exact I|]. apply IH; [apply visited_children; exact I|exact B]. }
  apply (count_occ_In Nat.eq_dec). fold count. pose proof (count_node n (vertex d)). lia.
Qed.
Lemma visit_targets n : forall name l, visit_node ConnectingAst name n = Some l ->
  (forall v, count (node_vertices n) v = 0 -> targets l v = []) /\
  (forall d, (forall v, count (node_vertices n) v <= 1) -> below n d -> targets l (vertex d) = map vertex (connected d)).
Proof.
  induction n as [n IH] using node_induction. intros name l E. rewrite visit_node_eq, own_ast in E.
  apply join_some in E as (u & r & Eo & E & ->). apply join_some in E as (w & k & Ej & Ec & ->). injection Ec as <-.
  injection Eo as <-.
  assert (T : forall v, targets ((opening name n ++ edges_from n) ++ w ++ closing ConnectingAst n) v =
     (if vertex n =? v then map vertex (connected n) else []) ++ targets w v).
  { intros v. rewrite !targets_app.
    replace (targets (opening name n) v) with (@nil nat) by (destruct n; reflexivity).
    replace (targets (closing ConnectingAst n) v) with (@nil nat) by (destruct n; reflexivity).
    rewrite app_nil_r. unfold edges_from. rewrite targets_edges. reflexivity. }
  assert (Z : forall v, count (flat_map node_vertices (visited n)) v = 0 -> targets w v = []).
  { intros v C. clear T. revert w Ej C. assert (IH' : forall c, In c (visited n) -> forall l, visit_node ConnectingAst (name_below n name) c = Some l ->
      count (node_vertices c) v = 0 -> targets l v = []).
    { intros c I q Eq. destruct (IH c (proj1 (visited_children n c) I) _ _ Eq) as [H _]. apply H. }
    revert IH'. clear. induction (visited n) as [|c l IHl]; intros H w Ej C; cbn [joined] in Ej.
    - injection Ej as <-. reflexivity.
    - apply join_some in Ej as (a & b & Ea & Eb & ->). cbn [flat_map] in C. rewrite count_app in C.
      rewrite targets_app, (H c (or_introl eq_refl) _ Ea) by lia.
      apply IHl; [|exact Eb|lia]. intros x I. apply H. cbn; auto. }
  split.
  - intros v C. pose proof (count_node n v) as N. rewrite T, Z by lia.
    destruct (vertex n =? v) eqn:Q; [|reflexivity]. apply Nat.eqb_eq in Q. subst v.
    assert (count [vertex n] (vertex n) > 0) by (apply count_occ_In; cbn; auto). lia.
  - intros d O B. rewrite T. apply below_step in B. destruct B as [->|(c & I & B)].
    + pose proof (count_node n (vertex n)) as N. specialize (O (vertex n)).
      assert (count [vertex n] (vertex n) > 0) by (apply count_occ_In; cbn; auto).
      rewrite Nat.eqb_refl, Z, app_nil_r by lia. reflexivity.
    + assert (P : In (vertex d) (node_vertices c)) by (apply below_vertices; exact B).
      apply (count_occ_In Nat.eq_dec) in P. fold count in P.
      assert (S : count (flat_map node_vertices (visited n)) (vertex d) >= count (node_vertices c) (vertex d)).
      { revert I. clear. induction (visited n) as [|x l IHl]; [easy|]. cbn [flat_map]. rewrite count_app.
        intros [->|I]; [lia|]. specialize (IHl I). lia. }
      pose proof (count_node n (vertex d)) as N. pose proof (O (vertex d)) as Od.
      assert (V : vertex n =? vertex d = false).
      { apply Nat.eqb_neq. intros Q. rewrite Q in N.
        assert (count [vertex d] (vertex d) > 0) by (apply count_occ_In; cbn; auto). lia. }
      rewrite V. cbn [app].
      assert (C1 : forall v, count (flat_map node_vertices (visited n)) v <= 1).
      { intros v. pose proof (count_node n v). specialize (O v). lia. }
      assert (IH' : forall c, In c (visited n) -> forall l, visit_node ConnectingAst (name_below n name) c = Some l ->
        (forall v, count (node_vertices c) v = 0 -> targets l v = []) /\
        (forall d, (forall v, count (node_vertices c) v <= 1) -> below c d -> targets l (vertex d) = map vertex (connected d))).
      { intros x Ix q Eq. apply (IH x) with (name := name_below n name); [apply visited_children; exact Ix|exact Eq]. }
      clear T Z. revert w Ej C1 IH' I. clear - B P. induction (visited n) as [|x l IHl]; intros w Ej C1 H I; [easy|].
      cbn [joined] in Ej. apply join_some in Ej as (a & b & Ea & Eb & ->). cbn [flat_map] in C1. rewrite targets_app.
      assert (Rest : count (flat_map node_vertices l) (vertex d) = 0 -> targets b (vertex d) = []).
      { clear IHl I. assert (HR : forall x0, In x0 l -> forall l0, visit_node ConnectingAst (name_below n name) x0 = Some l0 ->
           forall v, count (node_vertices x0) v = 0 -> targets l0 v = []) by (intros x0 I0 l0 E0; apply (H x0 (or_intror I0) _ E0)).
        clear H C1. revert b Eb HR. induction l as [|y l IHl]; intros b Eb HR C; cbn [joined] in Eb.
        - injection Eb as <-. reflexivity.
        - apply join_some in Eb as (p & q & Ep & Eq & ->). cbn [flat_map] in C. rewrite count_app in C.
          rewrite targets_app, (HR y (or_introl eq_refl) _ Ep) by lia. apply IHl; auto; [|lia].
          intros z Iz. apply HR. cbn; auto. }
      destruct I as [->|I].
      * destruct (H c (or_introl eq_refl) _ Ea) as [_ H2]. rewrite H2; [|intros v; specialize (C1 v); rewrite count_app in C1; lia|exact B].
        rewrite Rest, app_nil_r; [reflexivity|]. specialize (C1 (vertex d)). rewrite count_app in C1. lia.
      * destruct (H x (or_introl eq_refl) _ Ea) as [H1 _].
        assert (S : count (flat_map node_vertices l) (vertex d) >= count (node_vertices c) (vertex d)).
        { revert I. clear. induction l as [|x l IHl]; [easy|]. cbn [flat_map]. rewrite count_app.
          intros [->|I]; [lia|]. specialize (IHl I). lia. }
        rewrite H1 by (specialize (C1 (vertex d)); rewrite count_app in C1; lia). cbn [app].
        apply IHl; auto.
        -- intros v. specialize (C1 v). rewrite count_app in C1. lia.
        -- intros y Iy. apply H. cbn; auto.
Qed.
End Proofs.
