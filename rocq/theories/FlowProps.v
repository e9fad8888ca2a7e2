(** * C83: flow graphs *)
From Coq Require Import String List Bool Arith Ascii Lia.
From Verif Require Import AstModel SymbolModel IdentifyModel IdentifySpec IdentifyProofs IdentifyProps FlowModel FlowSpec.
Import ListNotations.

Section Proofs.
Context {A : Type}.
Variables (constant : A -> string) (symbol : string -> string).

(** ** Lines, by their kind *)

Definition edge_of (l : line) : list (nat * nat) := match l with Edge v w => [(v, w)] | _ => [] end.
Definition vertex_of (l : line) : list nat := match l with Vertex v _ => [v] | _ => [] end.

Lemma in_block (t : stmt A) found l k : exists k', fst (connect_block found (t :: l) k) = fst (connect_stmt found t k) ++ fst (connect_block found l k').
Proof.
  cbn [connect_block]. destruct (connect_stmt found t k) as [a k1]. destruct (connect_block found l k1) as [b k2] eqn:E.
  exists k1. rewrite E. reflexivity.
Qed.
Lemma stmt_if found (c : expr A) t f k : exists k1, fst (connect_stmt found (If c t f) k) =
  connect_expr found c ++ Opens k :: fst (connect_block found t (S k)) ++ [Closes] ++
  match f with [] => [] | _ => Opens k1 :: fst (connect_block found f (S k1)) ++ [Closes] end.
Proof.
  assert (B : forall (l : list (stmt A)) k, (fix block l k := match l with [] => ([], k)
     | t :: l => let (a, k) := connect_stmt found t k in let (b, k) := block l k in (a ++ b, k) end) l k = connect_block found l k).
  { induction l as [|x l IH]; intros k0; [reflexivity|]. cbn [connect_block]. destruct (connect_stmt found x k0). rewrite IH. reflexivity. }
  destruct f as [|x f]; cbn [connect_stmt]; rewrite B; destruct (connect_block found t (S k)) as [a k1] eqn:E; exists k1; cbv zeta.
  - cbn [fst]. rewrite app_nil_r. reflexivity.
  - specialize (B (x :: f) (S k1)). cbv beta iota in B. rewrite B. destruct (connect_block found (x :: f) (S k1)) as [b k2].
    cbn [fst]. rewrite <- ?app_assoc. cbn [app]. rewrite <- ?app_assoc. reflexivity.
Qed.

Section Edges.
Variable found : ident.
Definition source (e : expr A) (v : nat) : Prop :=
  match e with
  | Name i _ => match definitions_of found i with [] => v = i | l => In v l end
  | _ => v = expr_id e
  end.
Lemma connect_in e v w u : In (Edge v w) (connect found e u) <-> w = u /\ source e v.
Proof.
  destruct e; cbn [connect source expr_id]; try (split; [intros [[= <- <-]|[]]; auto|intros [-> ->]; cbn; auto]).
  destruct (definitions_of found id) as [|d l]; [split; [intros [[= <- <-]|[]]; auto|intros [-> ->]; cbn; auto]|].
  rewrite in_map_iff. split; [intros (x & [= -> ->] & I); auto|intros [-> I]; exists v; auto].
Qed.
Lemma connect_expr_in (e : expr A) v w : In (Edge v w) (connect_expr found e) <->
  exists o a, part o e /\ operand a o /\ expr_id o = w /\ source a v.
Proof.
  induction e as [i x|i c|i f args IH|i e sel IHe IHs|i e mm IHe] using expr_induction; cbn [connect_expr].
  - split; [intros []|]. intros (o & a & P & O & _). inversion P; subst; destruct O.
  - split; [intros []|]. intros (o & a & P & O & _). inversion P; subst; destruct O.
  - rewrite in_app_iff, !in_flat_map. rewrite Forall_forall in IH. split.
    + intros [(a & I & C)|(a & I & C)].
      * apply connect_in in C as [-> S]. exists (Operation i f args), a. repeat split; auto. constructor.
      * apply IH in C as (o & b & P & O & E & S); auto. exists o, b. repeat split; auto. econstructor; eauto.
    + intros (o & b & P & O & E & S). inversion P; subst.
      * left. exists b. split; auto. apply connect_in. auto.
      * right. exists a. split; auto. apply IH; auto. exists o, b. auto.
  - rewrite !in_app_iff, !connect_in, IHe, IHs. split.
    + intros [[[-> S]|[-> S]]|[(o & b & P & O & E & S)|(o & b & P & O & E & S)]].
      * exists (Subscript i e sel), e. cbn. repeat split; auto. constructor.
      * exists (Subscript i e sel), sel. cbn. repeat split; auto. constructor.
      * exists o, b. repeat split; auto. constructor; auto.
      * exists o, b. repeat split; auto. constructor 4; auto.
    + intros (o & b & P & O & E & S). inversion P; subst.
      * destruct O as [-> | ->]; auto.
      * right. left. exists o, b. auto.
      * right. right. exists o, b. auto.
  - rewrite IHe. split; intros (o & b & P & O & E & S).
    + exists o, b. repeat split; auto. constructor; auto.
    + inversion P; subst; [destruct O|]. exists o, b. auto.
Qed.
Definition flows_stmt (t : stmt A) v w : Prop :=
  (exists x e, assigns w x e t /\ source e v) \/ (exists o a, in_statement o t /\ operand a o /\ expr_id o = w /\ source a v).
Lemma block_in l : Forall (fun t => forall v w k, In (Edge v w) (fst (connect_stmt found t k)) <-> flows_stmt t v w) l ->
  forall v w k, In (Edge v w) (fst (connect_block found l k)) <-> exists t, In t l /\ flows_stmt t v w.
Proof.
  induction 1 as [|t l H _ IH]; intros v w k.
  - cbn. split; [intros []|intros (? & [] & _)].
  - destruct (in_block t found l k) as [k' ->]. rewrite in_app_iff, H, IH. split.
    + intros [F|(u & I & F)]; [exists t|exists u]; cbn; auto.
    + intros (u & [<-|I] & F); eauto.
Qed.
Lemma connect_stmt_in t : forall v w k, In (Edge v w) (fst (connect_stmt found t k)) <-> flows_stmt t v w.
Proof.
  induction t as [u x e|e|c t f Ht Hf|c t f Ht Hf] using stmt_induction; intros v w k.
  - cbn [connect_stmt fst]. rewrite in_app_iff, connect_in, connect_expr_in. unfold flows_stmt. split.
    + intros [[-> S]|(o & a & P & O & E & S)]; [left; exists x, e; split; auto; constructor|right; exists o, a; repeat split; auto; constructor; auto].
    + intros [(y & e' & I & S)|(o & a & I & O & E & S)]; inversion I; subst; auto. right. exists o, a. auto.
  - cbn [connect_stmt fst]. rewrite connect_expr_in. unfold flows_stmt. split.
    + intros (o & a & P & O & E & S). right; exists o, a; repeat split; auto; constructor; auto.
    + intros [(y & e' & I & S)|(o & a & I & O & E & S)]; inversion I; subst. exists o, a. auto.
  - destruct (stmt_if found c t f k) as [k1 ->]. rewrite in_app_iff, connect_expr_in. cbn [In]. rewrite !in_app_iff.
    rewrite (block_in _ Ht).
    assert (F : In (Edge v w) (match f with [] => [] | _ => Opens k1 :: fst (connect_block found f (S k1)) ++ [Closes] end) <->
                exists s, In s f /\ flows_stmt s v w).
    { rewrite <- (block_in _ Hf v w (S k1)). destruct f as [|y f]; [reflexivity|]. cbn [In]. rewrite in_app_iff. cbn [In]. intuition discriminate. }
    rewrite F. cbn [In]. unfold flows_stmt. split.
    + intros [(o & a & P & O & E & S)|[Q|[(s & I & [(x & e & J & S)|(o & a & J & O & E & S)])|[[Q|Q]|(s & I & [(x & e & J & S)|(o & a & J & O & E & S)])]]]];
        try discriminate; try contradiction.
      * right. exists o, a. repeat split; auto. constructor; auto.
      * left. exists x, e. split; auto. econstructor 2; eauto.
      * right. exists o, a. repeat split; auto. econstructor 4; eauto.
      * left. exists x, e. split; auto. econstructor 3; eauto.
      * right. exists o, a. repeat split; auto. econstructor 5; eauto.
    + intros [(x & e & J & S)|(o & a & J & O & E & S)]; inversion J; subst.
      * right. right. left. exists s. split; eauto.
      * right. right. right. right. exists s. split; eauto.
      * left. exists o, a. auto.
      * right. right. left. exists s. split; auto. right. exists o, a. auto.
      * right. right. right. right. exists s. split; auto. right. exists o, a. auto.
  - cbn. split; [intros []|]. intros [(y & e' & I & S)|(o & a & I & O & E & S)]; inversion I.
Qed.

Lemma declared_no_edge_expr (e : expr A) v w : ~ In (Edge v w) (declare_expr found constant symbol e).
Proof.
  assert (N : forall i x, ~ In (Edge v w) (declare_name found i x)).
  { intros i x. unfold declare_name. destruct (definitions_of found i); [intros [Q|[]]; discriminate|].
    destruct (existsb _ _); [intros [Q|[]]; discriminate|intros []]. }
  induction e as [i x|i c|i f args IH|i e sel IHe IHs|i e mm IHe] using expr_induction; cbn [declare_expr]; auto.
  - intros [Q|[]]. discriminate.
  - intros [Q|Q]; [discriminate|]. rewrite Forall_forall in IH. apply in_flat_map in Q as (a & I & Q). exact (IH a I Q).
  - intros [Q|Q]; [discriminate|]. apply in_app_iff in Q as [Q|Q]; auto.
Qed.
Lemma declared_no_edge (t : stmt A) v w : ~ In (Edge v w) (declare_stmt found constant symbol t).
Proof.
  assert (N : forall i x, ~ In (Edge v w) (declare_name found i x)).
  { intros i x. apply (declared_no_edge_expr (Name i x)). }
  induction t as [u x e|e|c t f Ht Hf|c t f Ht Hf] using stmt_induction; cbn [declare_stmt]; auto.
  - rewrite in_app_iff. intros [Q|Q]; [exact (declared_no_edge_expr e v w Q)|exact (N u x Q)].
  - apply declared_no_edge_expr.
  - intros [Q|Q]; [discriminate|]. rewrite !in_app_iff in Q. rewrite Forall_forall in Ht, Hf.
    destruct Q as [Q|[Q|Q]]; [exact (declared_no_edge_expr c v w Q)| |]; apply in_flat_map in Q as (s & I & Q); [exact (Ht s I Q)|exact (Hf s I Q)].
Qed.
End Edges.

(** Names in a module are in its list of links. *)
Lemma part_vertices i x (e : expr A) : part (Name i x) e -> In i (expr_vertices e).
Proof. intros P. remember (Name i x) as n. induction P; subst; cbn; auto; try (rewrite in_app_iff; auto). apply in_flat_map. eauto. Qed.
Lemma in_statement_vertices i x (t : stmt A) : in_statement (Name i x) t -> In i (stmt_vertices t).
Proof.
  intros P. remember (Name i x) as n. induction P; subst; cbn [stmt_vertices]; rewrite ?in_app_iff; eauto using part_vertices.
  - right. left. apply in_flat_map. eauto.
  - right. right. apply in_flat_map. eauto.
Qed.
Lemma shown_vertices i x (m : list (stmt A)) : shown m (Name i x) -> In i (vertices m).
Proof. intros (s & I & P). apply in_flat_map. exists s. split; auto. apply (in_statement_vertices i x). exact P. Qed.
Lemma nodup_fst {X Y} (l : list (X * Y)) x y z : NoDup (map fst l) -> In (x, y) l -> In (x, z) l -> y = z.
Proof.
  induction l as [|[a b] l IH]; intros N I J; [destruct I|]. cbn in N. inversion N; subst.
  destruct I as [I|I], J as [J|J]; auto; [congruence| |]; exfalso; apply H1; apply in_map_iff.
  - injection I as -> ->. exists (x, z). auto.
  - injection J as -> ->. exists (x, y). auto.
Qed.
Lemma part_assigned (m : list (stmt A)) v x e : assigned m v x e -> shown m e.
Proof.
  intros (s & I & H). exists s. split; auto. clear I. induction H.
  - constructor. constructor.
  - econstructor 4; eauto.
  - econstructor 5; eauto.
Qed.
Lemma part_trans (a b c : expr A) : part a b -> part b c -> part a c.
Proof. intros P. induction 1; auto; [econstructor; eauto|constructor; auto|constructor 4; auto|constructor; auto]. Qed.
Lemma operand_part (a o : expr A) : operand a o -> part a o.
Proof. destruct o; cbn; try contradiction. - intros I. econstructor; eauto. constructor. - intros [-> | ->]; [constructor|constructor 4]; constructor. Qed.
Lemma operand_shown (m : list (stmt A)) a o : shown m o -> operand a o -> shown m a.
Proof.
  intros (s & I & H) O. exists s. split; auto. clear I. apply operand_part in O. induction H.
  - constructor. eapply part_trans; eauto.
  - constructor. eapply part_trans; eauto.
  - constructor. eapply part_trans; eauto.
  - econstructor 4; eauto.
  - econstructor 5; eauto.
Qed.

(** What the links found say, for names in the module *)
Lemma source_is (m : list (stmt A)) found e v : NoDup (vertices m) -> identify_module m identify_initial = Some found -> shown m e ->
  (source found e v <-> comes_from m e v).
Proof.
  intros N E S. destruct (C51_links A m N) as (s & E' & MV & D & _). rewrite E in E'. injection E' as <-.
  destruct e; cbn [source comes_from]; try reflexivity.
  assert (I : In id (vertices m)) by (eapply shown_vertices; eauto). rewrite <- MV in I. apply in_map_iff in I as ([i o] & Q & I). cbn in Q. subst i.
  rewrite (D id o I). split.
  - intros H. exists o. split; auto. destruct o; cbn in H; [destruct H as [<-|[]]; auto|auto].
  - intros (o' & I' & ->). assert (o' = o) as -> by (eapply nodup_fst; eauto; rewrite MV; auto). destruct o; cbn; auto.
Qed.

(** ** Vertices *)
Section Vertices.
Variable found : ident.
Definition own (v : nat) : Prop := match definitions_of found v with [] => True | l => In v l end.
Lemma declare_name_in i x v l : In (Vertex v l) (declare_name found i x) <-> v = i /\ l = x /\ own i.
Proof.
  unfold declare_name, own. destruct (definitions_of found i) as [|d r]; [split; [intros [[= <- <-]|[]]; auto|intros (-> & -> & _); cbn; auto]|].
  destruct (existsb (Nat.eqb i) (d :: r)) eqn:E.
  - apply existsb_exists in E as (y & I & Q). apply Nat.eqb_eq in Q. subst y.
    split; [intros [[= <- <-]|[]]; auto|intros (-> & -> & _); left; auto].
  - split; [intros []|]. intros (-> & -> & I). assert (existsb (Nat.eqb i) (d :: r) = true); [|congruence].
    apply existsb_exists. exists i. split; auto. apply Nat.eqb_refl.
Qed.
Definition stands (e : expr A) : Prop := match e with Name i _ => own i | Attribute _ _ _ => False | _ => True end.
Lemma declare_expr_in (e : expr A) v l : In (Vertex v l) (declare_expr found constant symbol e) <->
  exists o, part o e /\ expr_id o = v /\ stands o /\ l = label_of constant symbol o.
Proof.
  induction e as [i x|i c|i f args IH|i e sel IHe IHs|i e mm IHe] using expr_induction; cbn [declare_expr].
  - rewrite declare_name_in. split.
    + intros (-> & -> & O). exists (Name i x). repeat split; auto. constructor.
    + intros (o & P & E & S & ->). inversion P; subst. auto.
  - cbn [In]. split.
    + intros [[= <- <-]|[]]. exists (Const i c). repeat split. constructor.
    + intros (o & P & E & S & ->). inversion P; subst. auto.
  - cbn [In]. rewrite in_flat_map. rewrite Forall_forall in IH. split.
    + intros [[= <- <-]|(a & I & Q)]; [exists (Operation i f args); repeat split; constructor|].
      apply IH in Q as (o & P & R); auto. exists o. split; auto. econstructor; eauto.
    + intros (o & P & R). inversion P; subst.
      * left. destruct R as (<- & _ & ->). reflexivity.
      * right. exists a. split; auto. apply IH; auto. exists o. auto.
  - cbn [In]. rewrite in_app_iff, IHe, IHs. split.
    + intros [[= <- <-]|[(o & P & R)|(o & P & R)]].
      * exists (Subscript i e sel); repeat split; constructor.
      * exists o. split; auto. constructor; auto.
      * exists o. split; auto. constructor 4; auto.
    + intros (o & P & R). inversion P; subst.
      * left. destruct R as (<- & _ & ->). reflexivity.
      * right. left. exists o. auto.
      * right. right. exists o. auto.
  - rewrite IHe. split; intros (o & P & R).
    + exists o. split; auto. constructor; auto.
    + inversion P; subst; [destruct R as (_ & [] & _)|]. exists o. auto.
Qed.
Definition stands_in (t : stmt A) v l : Prop :=
  (exists o, in_statement o t /\ expr_id o = v /\ stands o /\ l = label_of constant symbol o) \/
  (exists e, assigns v l e t /\ own v).
Lemma declare_stmt_in (t : stmt A) v l : In (Vertex v l) (declare_stmt found constant symbol t) <-> stands_in t v l.
Proof.
  unfold stands_in. induction t as [u x e|e|c t f Ht Hf|c t f Ht Hf] using stmt_induction; cbn [declare_stmt].
  - rewrite in_app_iff, declare_expr_in, declare_name_in. split.
    + intros [(o & P & R)|(-> & -> & O)]; [left; exists o; split; auto; constructor; auto|right; exists e; split; auto; constructor].
    + intros [(o & P & R)|(e' & P & O)]; inversion P; subst; auto. left. exists o. auto.
  - rewrite declare_expr_in. split.
    + intros (o & P & R); left; exists o; split; auto; constructor; auto.
    + intros [(o & P & R)|(e' & P & O)]; inversion P; subst; auto. exists o. auto.
  - cbn [In]. rewrite !in_app_iff, declare_expr_in, !in_flat_map. rewrite Forall_forall in Ht, Hf. split.
    + intros [Q|[(o & P & R)|[(s & I & Q)|(s & I & Q)]]]; [discriminate| | |].
      * left; exists o; split; auto; constructor; auto.
      * apply Ht in Q as [(o & P & R)|(e & P & O)]; auto; [left; exists o; split; auto; econstructor 4; eauto|right; exists e; split; auto; econstructor 2; eauto].
      * apply Hf in Q as [(o & P & R)|(e & P & O)]; auto; [left; exists o; split; auto; econstructor 5; eauto|right; exists e; split; auto; econstructor 3; eauto].
    + intros [(o & P & R)|(e & P & O)]; inversion P; subst.
      * right. left. exists o. auto.
      * right. right. left. exists s. split; auto. apply Ht; auto. left. exists o. auto.
      * right. right. right. exists s. split; auto. apply Hf; auto. left. exists o. auto.
      * right. right. left. exists s. split; auto. apply Ht; auto. right. exists e. auto.
      * right. right. right. exists s. split; auto. apply Hf; auto. right. exists e. auto.
  - split; [intros []|]. intros [(o & P & R)|(e & P & O)]; inversion P.
Qed.
Lemma connect_no_vertex (e : expr A) w v l : ~ In (Vertex v l) (connect found e w).
Proof.
  destruct e; cbn [connect]; try (intros [Q|[]]; discriminate). destruct (definitions_of found id); [intros [Q|[]]; discriminate|].
  intros Q. apply in_map_iff in Q as (? & Q & _). discriminate.
Qed.
Lemma connect_expr_no_vertex (e : expr A) v l : ~ In (Vertex v l) (connect_expr found e).
Proof.
  induction e as [i x|i c|i f args IH|i e sel IHe IHs|i e mm IHe] using expr_induction; cbn [connect_expr]; auto.
  - rewrite in_app_iff, !in_flat_map. rewrite Forall_forall in IH. intros [(a & I & Q)|(a & I & Q)]; [exact (connect_no_vertex _ _ _ _ Q)|exact (IH a I Q)].
  - rewrite !in_app_iff. intros [[Q|Q]|[Q|Q]]; auto; exact (connect_no_vertex _ _ _ _ Q).
Qed.
Lemma connect_stmt_no_vertex (t : stmt A) v l : forall k, ~ In (Vertex v l) (fst (connect_stmt found t k)).
Proof.
  assert (B : forall m : list (stmt A), Forall (fun t => forall k, ~ In (Vertex v l) (fst (connect_stmt found t k))) m ->
     forall k, ~ In (Vertex v l) (fst (connect_block found m k))).
  { induction 1 as [|s m H _ IH]; intros k Q; [destruct Q|]. destruct (in_block s found m k) as [k' E]. rewrite E, in_app_iff in Q.
    destruct Q as [Q|Q]; [exact (H _ Q)|exact (IH _ Q)]. }
  induction t as [u x e|e|c t f Ht Hf|c t f Ht Hf] using stmt_induction; intros k.
  - cbn [connect_stmt fst]. rewrite in_app_iff. intros [Q|Q]; [exact (connect_no_vertex _ _ _ _ Q)|exact (connect_expr_no_vertex _ _ _ Q)].
  - cbn [connect_stmt fst]. apply connect_expr_no_vertex.
  - destruct (stmt_if found c t f k) as [k1 ->]. rewrite in_app_iff. cbn [In]. rewrite !in_app_iff. cbn [In].
    intros [Q|[Q|[Q|[[Q|[]]|Q]]]]; try discriminate; [exact (connect_expr_no_vertex _ _ _ Q)|exact (B _ Ht _ Q)|].
    destruct f as [|s f]; [destruct Q|]. cbn [In] in Q. rewrite in_app_iff in Q. destruct Q as [Q|[Q|[Q|[]]]]; try discriminate. exact (B _ Hf _ Q).
  - intros [].
Qed.
Lemma graph_vertex (m : list (stmt A)) k v l : In (Vertex v l) (flow_graph found constant symbol m k) <->
  (exists o, shown m o /\ expr_id o = v /\ stands o /\ l = label_of constant symbol o) \/ (exists e, assigned m v l e /\ own v).
Proof.
  unfold flow_graph. rewrite in_app_iff, in_flat_map. split.
  - intros [(s & I & Q)|Q].
    + apply declare_stmt_in in Q as [(o & P & R)|(e & P & O)]; [left; exists o; split; auto; exists s; auto|right; exists e; split; auto; exists s; auto].
    + exfalso. revert k Q. induction m as [|s m IH]; intros k Q; [destruct Q|]. destruct (in_block s found m k) as [k' E]. rewrite E, in_app_iff in Q.
      destruct Q as [Q|Q]; [exact (connect_stmt_no_vertex _ _ _ _ Q)|exact (IH _ Q)].
  - intros [(o & (s & I & P) & R)|(e & (s & I & P) & O)]; left; exists s; (split; [auto|]); apply declare_stmt_in; [left; exists o; auto|right; exists e; auto].
Qed.
End Vertices.

(** ** Definitions that are visible are shown. *)
Fixpoint shown_stmt (n : scoping) (t : stmt A) : list (nat * option nat) :=
  let block := fix block n l := match l with [] => [] | t :: l' => shown_stmt n t ++ block (after n t) l' end in
  match t with
  | Assign v x e => expr_links n e ++ [(v, Some v)]
  | Expr e => expr_links n e
  | If c t f => expr_links n c ++ block n t ++ block n f
  | While _ _ _ => []
  end.
Fixpoint shown_links (n : scoping) (l : list (stmt A)) : list (nat * option nat) :=
  match l with [] => [] | t :: l' => shown_stmt n t ++ shown_links (after n t) l' end.
Lemma shown_if n c t f : shown_stmt n (If c t f) = expr_links n c ++ shown_links n t ++ shown_links n f.
Proof.
  reflexivity.
Qed.
Lemma shown_incl (t : stmt A) : forall n p, In p (shown_stmt n t) -> In p (stmt_links n t).
Proof.
  assert (B : forall l : list (stmt A), Forall (fun t => forall n p, In p (shown_stmt n t) -> In p (stmt_links n t)) l ->
    forall n p, In p (shown_links n l) -> In p (links n l)).
  { induction 1 as [|s l H _ IH]; intros n p; auto. cbn [shown_links links]. rewrite !in_app_iff. intros [Q|Q]; eauto. }
  induction t as [u x e|e|c t f Ht Hf|c t f Ht Hf] using stmt_induction; intros n p; auto.
  - rewrite shown_if, links_if, !in_app_iff. intros [Q|[Q|Q]]; auto.
  - intros [].
Qed.
Lemma shown_links_incl (l : list (stmt A)) : forall n p, In p (shown_links n l) -> In p (links n l).
Proof. induction l as [|s l IH]; intros n p; auto. cbn [shown_links links]. rewrite !in_app_iff. intros [Q|Q]; auto using shown_incl. Qed.
Lemma part_links i x (e : expr A) n : part (Name i x) e -> exists o, In (i, o) (expr_links n e).
Proof.
  intros P. induction P; cbn [expr_links]; eauto using in_eq.
  - destruct IHP as (o & I). exists o. apply in_flat_map. eauto.
  - destruct IHP as (o & I). exists o. apply in_app_iff. auto.
  - destruct IHP as (o & I). exists o. apply in_app_iff. auto.
Qed.
Lemma block_has i (l : list (stmt A)) s : In s l -> (forall n, exists o, In (i, o) (shown_stmt n s)) -> forall n, exists o, In (i, o) (shown_links n l).
Proof.
  intros I H. induction l as [|t l IH]; intros n; [destruct I|]. cbn [shown_links]. destruct I as [-> |I].
  - destruct (H n) as [o Q]. exists o. apply in_app_iff. auto.
  - destruct (IH I (after n t)) as [o Q]. exists o. apply in_app_iff. auto.
Qed.
Lemma in_statement_links i x (t : stmt A) : in_statement (Name i x) t -> forall n, exists o, In (i, o) (shown_stmt n t).
Proof.
  intros P. induction P; intros n.
  - destruct (part_links i x a n H) as [o Q]. exists o. cbn. apply in_app_iff. auto.
  - destruct (part_links i x a n H) as [o Q]. exists o. cbn. auto.
  - destruct (part_links i x c n H) as [o Q]. exists o. rewrite shown_if. apply in_app_iff. auto.
  - destruct (block_has i t s H IHP n) as [o Q]. exists o. rewrite shown_if, !in_app_iff. auto.
  - destruct (block_has i f s H IHP n) as [o Q]. exists o. rewrite shown_if, !in_app_iff. auto.
Qed.
Lemma expr_visible (e : expr A) n i d : In (i, Some d) (expr_links n e) -> exists x, n x = Some d.
Proof.
  induction e as [j x|j c|j f args IH|j e sel IHe IHs|j e mm IHe] using expr_induction; cbn [expr_links]; auto.
  - intros [[= -> Q]|[]]. eauto.
  - intros [].
  - intros Q. apply in_flat_map in Q as (a & I & Q). rewrite Forall_forall in IH. eauto.
  - rewrite in_app_iff. intros [Q|Q]; auto.
Qed.
Lemma stmt_visible (t : stmt A) : forall n i d, In (i, Some d) (shown_stmt n t) -> (exists x, n x = Some d) \/ exists x e, assigns d x e t.
Proof.
  assert (B : forall l : list (stmt A), Forall (fun t => forall n i d, In (i, Some d) (shown_stmt n t) -> (exists x, n x = Some d) \/ exists x e, assigns d x e t) l ->
    forall n i d, In (i, Some d) (shown_links n l) -> (exists x, n x = Some d) \/ exists s x e, In s l /\ assigns d x e s).
  { induction 1 as [|s l H _ IH]; intros n i d; [intros []|]. cbn [shown_links]. rewrite in_app_iff. intros [Q|Q].
    - destruct (H _ _ _ Q) as [V|(x & e & S)]; auto. right. exists s, x, e. cbn. auto.
    - destruct (IH _ _ _ Q) as [(x & V)|(r & x & e & I & S)]; [|right; exists r, x, e; cbn; auto].
      destruct s; cbn [after] in V; eauto. unfold define in V. destruct (String.eqb x name); eauto. injection V as ->.
      right. eexists _, name, e. split; [left; reflexivity|constructor]. }
  induction t as [u x e|e|c t f Ht Hf|c t f Ht Hf] using stmt_induction; intros n i d.
  - cbn [shown_stmt]. rewrite in_app_iff. intros [Q|[[= -> ->]|[]]]; [left; eapply expr_visible; eauto|right; exists x, e; constructor].
  - intros Q. left. eapply expr_visible; eauto.
  - rewrite shown_if, !in_app_iff. intros [Q|[Q|Q]]; [left; eapply expr_visible; eauto| |].
    + destruct (B _ Ht _ _ _ Q) as [V|(s & x & e & I & S)]; auto. right. exists x, e. econstructor 2; eauto.
    + destruct (B _ Hf _ _ _ Q) as [V|(s & x & e & I & S)]; auto. right. exists x, e. econstructor 3; eauto.
  - intros [].
Qed.
Lemma module_visible (m : list (stmt A)) i x d : NoDup (vertices m) -> shown m (Name i x) -> In (i, Some d) (links nothing m) ->
  exists y e, assigned m d y e.
Proof.
  intros N S I. destruct (C51_links A m N) as (found & _ & MV & _). destruct S as (s & J & P).
  destruct (block_has i m s J (in_statement_links i x s P) nothing) as [o Q].
  assert (o = Some d) as -> by (eapply nodup_fst; [rewrite MV; exact N|apply shown_links_incl; exact Q|exact I]).
  assert (B : forall (l : list (stmt A)) n, In (i, Some d) (shown_links n l) -> (exists x, n x = Some d) \/ exists y e, assigned l d y e).
  { induction l as [|t l IH]; intros n; [intros []|]. cbn [shown_links]. rewrite in_app_iff. intros [R|R].
    - apply stmt_visible in R as [V|(y & e & R)]; auto. right. exists y, e. exists t. cbn. auto.
    - destruct (IH _ R) as [(z & V)|(y & e & r & K & W)]; [|right; exists y, e, r; cbn; auto].
      destruct t; cbn [after] in V; eauto. unfold define in V. destruct (String.eqb z name); eauto. injection V as ->.
      right. eexists name, e, _. split; [left; reflexivity|constructor]. }
  destruct (B m nothing Q) as [(z & V)|R]; [discriminate|exact R].
Qed.
Lemma target_links (m : list (stmt A)) v x e : assigned m v x e -> In (v, Some v) (links nothing m).
Proof.
  intros (s & I & H). apply shown_links_incl.
  assert (B : forall (l : list (stmt A)) s, In s l -> (forall n, In (v, Some v) (shown_stmt n s)) -> forall n, In (v, Some v) (shown_links n l)).
  { intros l r J K. induction l as [|t l IH]; intros n; [destruct J|]. cbn [shown_links]. apply in_app_iff. destruct J as [-> |J]; auto. }
  apply (B m s I). clear I. induction H; intros n.
  - cbn. apply in_app_iff. cbn. auto.
  - rewrite shown_if, !in_app_iff. right. left. eapply B; eauto.
  - rewrite shown_if, !in_app_iff. right. right. eapply B; eauto.
Qed.

(** ** Vertices are declared once. *)
Lemma count_app (l1 l2 : list nat) v : count_occ Nat.eq_dec (l1 ++ l2) v = count_occ Nat.eq_dec l1 v + count_occ Nat.eq_dec l2 v.
Proof. apply count_occ_app. Qed.
Lemma count_flat {X} (f g : X -> list nat) v l : Forall (fun x => count_occ Nat.eq_dec (f x) v <= count_occ Nat.eq_dec (g x) v) l ->
  count_occ Nat.eq_dec (flat_map f l) v <= count_occ Nat.eq_dec (flat_map g l) v.
Proof. induction 1; cbn; auto. rewrite !count_app. lia. Qed.
Lemma flat_flat {X Y Z} (f : Y -> list Z) (g : X -> list Y) l : flat_map f (flat_map g l) = flat_map (fun x => flat_map f (g x)) l.
Proof. induction l; cbn; auto. rewrite flat_map_app. congruence. Qed.
Lemma count_name found i x v : count_occ Nat.eq_dec (flat_map vertex_of (declare_name found i x)) v <= count_occ Nat.eq_dec [i] v.
Proof.
  unfold declare_name. destruct (definitions_of found i); cbn [flat_map vertex_of app]; auto. destruct (existsb _ _); cbn [flat_map vertex_of app]; auto.
  cbn. destruct (Nat.eq_dec i v); lia.
Qed.
Lemma count_expr found (e : expr A) v :
  count_occ Nat.eq_dec (flat_map vertex_of (declare_expr found constant symbol e)) v <= count_occ Nat.eq_dec (expr_ids e) v.
Proof.
  induction e as [i x|i c|i f args IH|i e sel IHe IHs|i e mm IHe] using expr_induction; cbn [declare_expr expr_ids].
  - apply count_name.
  - cbn. lia.
  - cbn [flat_map vertex_of app count_occ]. rewrite flat_flat.
    pose proof (count_flat (fun x => flat_map vertex_of (declare_expr found constant symbol x)) expr_ids v args IH) as Q. destruct (Nat.eq_dec i v); lia.
  - cbn [flat_map vertex_of app count_occ]. rewrite flat_map_app, !count_app. destruct (Nat.eq_dec i v); lia.
  - cbn [count_occ]. destruct (Nat.eq_dec i v); lia.
Qed.
Lemma count_stmt found (t : stmt A) v :
  count_occ Nat.eq_dec (flat_map vertex_of (declare_stmt found constant symbol t)) v <= count_occ Nat.eq_dec (stmt_ids t) v.
Proof.
  induction t as [u x e|e|c t f Ht Hf|c t f Ht Hf] using stmt_induction; cbn [declare_stmt stmt_ids].
  - rewrite flat_map_app, !count_app. pose proof (count_expr found e v). pose proof (count_name found u x v). lia.
  - apply count_expr.
  - cbn [flat_map vertex_of app]. rewrite !flat_map_app, !count_app, !flat_flat. pose proof (count_expr found c v).
    pose proof (count_flat (fun x => flat_map vertex_of (declare_stmt found constant symbol x)) stmt_ids v t Ht).
    pose proof (count_flat (fun x => flat_map vertex_of (declare_stmt found constant symbol x)) stmt_ids v f Hf). lia.
  - cbn. lia.
Qed.

(** ** Clusters *)
Definition flat (l : list line) : Prop := Forall (fun x => match x with Opens _ | Closes => False | _ => True end) l.
Lemma flat_closed l d rest : flat l -> closed d (l ++ rest) = closed d rest.
Proof. induction 1 as [|x l H _ IH]; auto. destruct x; cbn; auto; contradiction. Qed.
Lemma flat_opened l : flat l -> opened l = [].
Proof. induction 1 as [|x l H _ IH]; auto. unfold opened in *. cbn. destruct x; cbn; auto; contradiction. Qed.
Lemma flat_app l l' : flat l -> flat l' -> flat (l ++ l').
Proof. intros. apply Forall_app. auto. Qed.
Lemma flat_all {X} (f : X -> list line) l : Forall (fun x => flat (f x)) l -> flat (flat_map f l).
Proof. induction 1; cbn; [constructor|apply flat_app; auto]. Qed.
Lemma connect_flat found (e : expr A) w : flat (connect found e w).
Proof.
  destruct e; cbn [connect]; try (repeat constructor). destruct (definitions_of found id); [repeat constructor|].
  apply Forall_forall. intros x I. apply in_map_iff in I as (d & <- & _). exact I.
Qed.
Lemma connect_expr_flat found (e : expr A) : flat (connect_expr found e).
Proof.
  induction e as [i x|i c|i f args IH|i e sel IHe IHs|i e mm IHe] using expr_induction; cbn [connect_expr]; auto; try constructor.
  - apply flat_app; apply flat_all; auto. apply Forall_forall. intros. apply connect_flat.
  - apply flat_app; apply flat_app; auto using connect_flat.
Qed.
Lemma declare_name_flat found i x : flat (declare_name found i x).
Proof. unfold declare_name. destruct (definitions_of found i); [repeat constructor|]. destruct (existsb _ _); repeat constructor. Qed.
Lemma declare_expr_flat found (e : expr A) : flat (declare_expr found constant symbol e).
Proof.
  induction e as [i x|i c|i f args IH|i e sel IHe IHs|i e mm IHe] using expr_induction; cbn [declare_expr]; auto using declare_name_flat.
  - repeat constructor.
  - constructor; auto. apply flat_all; auto.
  - constructor; auto. apply flat_app; auto.
Qed.
Lemma declare_stmt_flat found (t : stmt A) : flat (declare_stmt found constant symbol t).
Proof.
  induction t as [u x e|e|c t f Ht Hf|c t f Ht Hf] using stmt_induction; cbn [declare_stmt]; auto using declare_expr_flat.
  - apply flat_app; auto using declare_expr_flat, declare_name_flat.
  - constructor; auto. apply flat_app; auto using declare_expr_flat. apply flat_app; apply flat_all; auto.
  - constructor.
Qed.
Lemma opened_app l l' : opened (l ++ l') = opened l ++ opened l'.
Proof. apply flat_map_app. Qed.
Definition clustered (p : list line * nat) (k : nat) : Prop :=
  exists n, snd p = k + n /\ opened (fst p) = seq k n /\ forall d rest, closed d (fst p ++ rest) = closed d rest.
Lemma flat_clustered l k : flat l -> clustered (l, k) k.
Proof. intros F. exists 0. cbn [fst snd]. rewrite (flat_opened l F). repeat split; auto. intros. apply flat_closed. exact F. Qed.
Lemma clustered_app a b k k1 k2 : clustered (a, k1) k -> clustered (b, k2) k1 -> clustered (a ++ b, k2) k.
Proof.
  intros (n & E1 & O1 & C1) (n2 & E2 & O2 & C2). cbn [fst snd] in *. exists (n + n2). cbn [fst snd]. split; [lia|]. split.
  - rewrite opened_app, O1, O2, E1, seq_app. reflexivity.
  - intros d rest. rewrite <- app_assoc, C1, C2. reflexivity.
Qed.
Lemma clustered_wrap a k k1 : clustered (a, k1) (S k) -> clustered (Opens k :: a ++ [Closes], k1) k.
Proof.
  intros (n & E & O & C). cbn [fst snd] in *. exists (S n). cbn [fst snd]. split; [lia|]. split.
  - change (opened (Opens k :: a ++ [Closes])) with (k :: opened (a ++ [Closes])). rewrite opened_app, O. cbn. rewrite app_nil_r. reflexivity.
  - intros d rest. cbn [app closed]. rewrite <- app_assoc, C. reflexivity.
Qed.
Lemma block_clustered found l : Forall (fun t => forall k, clustered (connect_stmt found t k) k) l ->
  forall k, @clustered (connect_block (A := A) found l k) k.
Proof.
  induction 1 as [|t l H _ IH]; intros k; cbn [connect_block]; [apply flat_clustered; constructor|].
  specialize (H k). destruct (connect_stmt found t k) as [a k1]. specialize (IH k1). destruct (connect_block found l k1) as [b k2].
  eapply clustered_app; eauto.
Qed.
Lemma stmt_clustered found (t : stmt A) : forall k, clustered (connect_stmt found t k) k.
Proof.
  assert (B : forall (l : list (stmt A)) k, (fix block l k := match l with [] => ([], k)
     | t :: l => let (a, k) := connect_stmt found t k in let (b, k) := block l k in (a ++ b, k) end) l k = connect_block found l k).
  { induction l as [|x l IH]; intros k0; [reflexivity|]. cbn [connect_block]. destruct (connect_stmt found x k0). rewrite IH. reflexivity. }
  induction t as [u x e|e|c t f Ht Hf|c t f Ht Hf] using stmt_induction; intros k.
  - apply flat_clustered. apply flat_app; auto using connect_flat, connect_expr_flat.
  - apply flat_clustered. apply connect_expr_flat.
  - pose proof (block_clustered found t Ht (S k)) as T.
    assert (H1 : forall a k1, connect_block found t (S k) = (a, k1) -> clustered (connect_expr found c ++ Opens k :: a ++ [Closes], k1) k).
    { intros a k1 E. rewrite E in T. apply (clustered_app _ _ k k k1); [apply flat_clustered; apply connect_expr_flat|apply clustered_wrap; exact T]. }
    destruct f as [|y f]; cbn [connect_stmt]; rewrite B; destruct (connect_block found t (S k)) as [a k1] eqn:E; cbv zeta; auto.
    pose proof (B (y :: f) (S k1)) as Q. cbv beta iota in Q. rewrite Q. clear Q. pose proof (block_clustered found (y :: f) Hf (S k1)) as F.
    destruct (connect_block found (y :: f) (S k1)) as [b k2]. eapply clustered_app; [apply H1; reflexivity|apply clustered_wrap; exact F].
  - apply flat_clustered. constructor.
Qed.
End Proofs.

(** ** The claims *)

(** Edges: from where a value comes to the name it is assigned to, or to the operation it is an
    operand of.  (Nothing in [while] statements is shown.) *)
Theorem C83_edges (A : Type) (constant : A -> string) (symbol : string -> string) (m : list (stmt A)) found (k v w : nat) :
  NoDup (vertices m) -> identify_module m identify_initial = Some found ->
  (In (Edge v w) (flow_graph found constant symbol m k) <->
   (exists x e, assigned m w x e /\ comes_from m e v) \/
   (exists o a, shown m o /\ operand a o /\ expr_id o = w /\ comes_from m a v)).
Proof.
  intros N E. unfold flow_graph. rewrite in_app_iff.
  rewrite (block_in found m) by (apply Forall_forall; intros; apply connect_stmt_in). split.
  - intros [Q|(t & I & [(x & e & J & S)|(o & a & J & O & D & S)])].
    + apply in_flat_map in Q as (t & _ & Q). exfalso. exact (declared_no_edge constant symbol found t v w Q).
    + left. exists x, e. assert (assigned m w x e) by (exists t; auto). split; auto. apply (source_is m found); eauto using part_assigned.
    + right. exists o, a. assert (shown m o) by (exists t; auto). repeat split; auto. apply (source_is m found); eauto using operand_shown.
  - intros [(x & e & J & S)|(o & a & J & O & D & S)]; right.
    + apply (source_is m found) in S; eauto using part_assigned. destruct J as (t & I & J). exists t. split; auto. left. eauto.
    + apply (source_is m found) in S; eauto using operand_shown. destruct J as (t & I & J). exists t. split; auto. right. exists o, a. auto.
Qed.
Print Assumptions C83_edges.

(** Vertices: those of all expressions and targets, but of names with another definition and of
    attributes; labelled with the name, symbol or value *)
Theorem C83_vertices (A : Type) (constant : A -> string) (symbol : string -> string) (m : list (stmt A)) found (k v : nat) (l : string) :
  NoDup (vertices m) -> identify_module m identify_initial = Some found ->
  (In (Vertex v l) (flow_graph found constant symbol m k) <->
   (exists e, shown m e /\ ~ is_attribute e /\ expr_id e = v /\ comes_from m e v /\ l = label_of constant symbol e) \/
   (exists e, assigned m v l e)).
Proof.
  intros N E. rewrite graph_vertex. destruct (C51_links A m N) as (s & E' & MV & D & _). rewrite E in E'. injection E' as <-. split.
  - intros [(o & S & I & T & ->)|(e & P & O)]; [left; exists o|right; exists e; auto]. repeat split; auto.
    + destruct o; cbn in *; auto.
    + destruct o; cbn in *; auto. assert (J : In id (vertices m)) by (eapply shown_vertices; eauto). rewrite <- MV in J.
      apply in_map_iff in J as ([i o] & Q & J). cbn in Q. subst i. exists o. split; auto. subst v. unfold own in T. rewrite (D _ _ J) in T.
      destruct o; cbn in T; auto. destruct T as [T|[]]; auto.
  - intros [(e & S & T & I & C & ->)|(e & P)].
    + left. exists e. repeat split; auto. destruct e; cbn in *; auto. destruct C as (o & J & Q). unfold own. rewrite (D _ _ J).
      destruct o; cbn; auto. left. congruence.
    + right. exists e. split; auto. unfold own. rewrite (D v (Some v)) by (eapply target_links; eauto). cbn. auto.
Qed.
Print Assumptions C83_vertices.

(** No vertex is declared twice. *)
Theorem C83_once (A : Type) (constant : A -> string) (symbol : string -> string) (m : list (stmt A)) found (k : nat) :
  NoDup (ids m) -> NoDup (flat_map vertex_of (flow_graph found constant symbol m k)).
Proof.
  intros N. unfold flow_graph. rewrite flat_map_app.
  assert (Z : flat_map vertex_of (fst (connect_block found m k)) = []).
  { assert (Q : forall l, (forall v x, ~ In (Vertex v x) l) -> flat_map vertex_of l = []).
    { induction l as [|x l IH]; intros H; auto. cbn. rewrite IH by (intros v y I; apply (H v y); right; exact I).
      destruct x; auto. exfalso. apply (H v label). left. reflexivity. }
    apply Q. intros v l. clear N. revert k. induction m as [|s m IH]; intros k I; [destruct I|]. destruct (in_block s found m k) as [k' E]. rewrite E, in_app_iff in I.
    destruct I as [I|I]; [exact (connect_stmt_no_vertex found _ _ _ _ I)|exact (IH _ I)]. }
  rewrite Z, app_nil_r. rewrite (NoDup_count_occ Nat.eq_dec) in N. apply (NoDup_count_occ Nat.eq_dec). intros v. specialize (N v).
  unfold ids in N. rewrite flat_flat.
  pose proof (count_flat (fun x => flat_map vertex_of (declare_stmt found constant symbol x)) stmt_ids v m) as Q.
  specialize (Q ltac:(apply Forall_forall; intros; apply count_stmt)). lia.
Qed.
Print Assumptions C83_once.

(** Both ends of an edge are declared, except that it may begin in an attribute. *)
Theorem C83_ends (A : Type) (constant : A -> string) (symbol : string -> string) (m : list (stmt A)) found (k v w : nat) :
  NoDup (vertices m) -> identify_module m identify_initial = Some found ->
  In (Edge v w) (flow_graph found constant symbol m k) ->
  (exists l, In (Vertex w l) (flow_graph found constant symbol m k)) /\
  ((exists l, In (Vertex v l) (flow_graph found constant symbol m k)) \/ exists e, shown m e /\ is_attribute e /\ expr_id e = v).
Proof.
  intros N E I. apply (C83_edges A constant symbol m found k v w N E) in I.
  assert (V : forall a, shown m a -> comes_from m a v ->
     (exists l, In (Vertex v l) (flow_graph found constant symbol m k)) \/ exists e, shown m e /\ is_attribute e /\ expr_id e = v).
  { intros a S C. destruct a as [i x|i c|i f args|i a b|i a x].
    - destruct C as ([d|] & J & ->).
      + destruct (module_visible m i x d N S J) as (y & e & P). left. exists y. apply C83_vertices; auto. right. exists e. exact P.
      + left. exists x. apply C83_vertices; auto. left. exists (Name i x). repeat split; auto. exists None. auto.
    - left. eexists. apply C83_vertices; auto. left. exists (Const i c). cbn in *. repeat split; auto.
    - left. eexists. apply C83_vertices; auto. left. exists (Operation i f args). cbn in *. repeat split; auto.
    - left. eexists. apply C83_vertices; auto. left. exists (Subscript i a b). cbn in *. repeat split; auto.
    - right. exists (Attribute i a x). cbn in *. auto. }
  destruct I as [(x & e & P & C)|(o & a & S & O & D & C)].
  - split; [exists x; apply C83_vertices; auto; right; exists e; exact P|]. apply (V e); auto. eapply part_assigned; eauto.
  - split; [|apply (V a); auto; eapply operand_shown; eauto].
    exists (label_of constant symbol o). apply C83_vertices; auto. left. exists o. repeat split; auto; destruct o; cbn in *; auto; contradiction.
Qed.
Print Assumptions C83_ends.

(** Clusters are nested, and have different numbers, counting on from that of the last graph. *)
Theorem C83_clusters (A : Type) (constant : A -> string) (symbol : string -> string) (m : list (stmt A)) found (k : nat) :
  closed 0 (flow_graph found constant symbol m k) = Some 0 /\
  exists n, opened (flow_graph found constant symbol m k) = seq k n /\ snd (connect_block found m k) = k + n.
Proof.
  unfold flow_graph. assert (F : flat (flat_map (declare_stmt found constant symbol) m)).
  { apply flat_all. apply Forall_forall. intros. apply declare_stmt_flat. }
  destruct (block_clustered found m ltac:(apply Forall_forall; intros; apply stmt_clustered) k) as (n & E & O & C). split.
  - rewrite flat_closed by exact F. specialize (C 0 []). rewrite app_nil_r in C. exact C.
  - exists n. rewrite opened_app, flat_opened by exact F. auto.
Qed.
Print Assumptions C83_clusters.

(** Labels of strings: dot reads a text without quotes and backslashes as such.  A text with a quote
    ends the label early. *)
Lemma read_plain v rest : Forall (fun c => c <> """"%char /\ c <> "\"%char) (list_ascii_of_string v) -> read_quoted false (v ++ rest) = read_quoted false rest.
Proof.
  induction v as [|c v IH]; intros F; auto. inversion F; subst. cbn [append read_quoted]. destruct H1 as [Q B].
  destruct (Ascii.eqb_spec c """"); [contradiction|]. destruct (Ascii.eqb_spec c "\"); [contradiction|]. auto.
Qed.
Lemma append_assoc (a b c : string) : ((a ++ b) ++ c = a ++ (b ++ c))%string.
Proof. induction a as [|x a IH]; cbn; auto. rewrite IH. reflexivity. Qed.
Theorem C83_label (v rest : string) :
  (Forall (fun c => c <> """"%char /\ c <> "\"%char) (list_ascii_of_string v) -> read_quoted false (string_label v ++ """" ++ rest) = Some rest) /\
  (forall a b, v = (a ++ """" ++ b)%string -> Forall (fun c => c <> """"%char /\ c <> "\"%char) (list_ascii_of_string a) ->
     read_quoted false (string_label v ++ """" ++ rest) = Some (b ++ "\""""" ++ rest)%string).
Proof.
  unfold string_label. split.
  - intros F. rewrite !append_assoc. cbn [append read_quoted Ascii.eqb Bool.eqb]. rewrite read_plain by exact F. reflexivity.
  - intros a b -> F. rewrite !append_assoc. cbn [append read_quoted Ascii.eqb Bool.eqb]. rewrite read_plain by exact F. reflexivity.
Qed.
Print Assumptions C83_label.

Local Open Scope string_scope.
(** [if a: b = a.c + 1]; [while a: d = a]; [e = b] *)
Definition a_script : list (stmt nat) :=
  [If (Name 1 "a") [Assign 2 "b" (Operation 3 "add" [Attribute 4 (Name 5 "a") "c"; Const 6 1])] [];
   While (Name 7 "a") [Assign 8 "d" (Name 9 "a")] [];
   Assign 10 "b" (Name 11 "a"); Assign 12 "e" (Operation 13 "abs" [Name 14 "b"])].
Definition its_graph : list line :=
  match identify_module a_script identify_initial with
  | Some found => flow_graph found (fun _ => "1") (fun f => f) a_script 7
  | None => []
  end.
(** What should not be: conditions are not connected to what depends on them; the names in a loop
    are not shown; attributes are not declared, nor connected to what they are attributes of; and
    labels end at a quote in a string. *)
Theorem C83_refuted :
  its_graph = [Diamond; Vertex 1 "a"; Vertex 3 "add"; Vertex 5 "a"; Vertex 6 "1"; Vertex 2 "b"; Vertex 11 "a"; Vertex 10 "b"; Vertex 13 "abs"; Vertex 12 "e";
     Opens 7; Edge 3 2; Edge 4 3; Edge 6 3; Closes; Edge 11 10; Edge 13 12; Edge 10 13] /\
  read_quoted false (string_label "a"" [b" ++ """];") = Some " [b\""""];".
Proof. split; vm_compute; reflexivity. Qed.
Print Assumptions C83_refuted.

Example C83_case : exists found, identify_module a_script identify_initial = Some found /\ NoDup (vertices a_script) /\ NoDup (ids a_script) /\
  shown a_script (Name 14 "b") /\ comes_from a_script (Name 14 "b") 10 /\ assigned a_script 10 "b" (Name 11 "a").
Proof.
  assert (N : NoDup (vertices a_script)) by (vm_compute; repeat constructor; cbn; intuition lia).
  destruct (C51_links nat a_script N) as (found & E & _). exists found. split; [exact E|]. split; [exact N|].
  split; [vm_compute; repeat constructor; cbn; intuition lia|].
  split; [eexists; split; [do 3 right; left; reflexivity|]; constructor; econstructor; [left; reflexivity|constructor]|].
  split; [exists (Some 10); split; [vm_compute; tauto|reflexivity]|].
  eexists. split; [do 2 right; left; reflexivity|constructor].
Qed.
