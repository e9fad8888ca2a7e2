(** * Proofs about inlining *)
From Coq Require Import String List Bool Arith Lia.
From Verif Require Import AstModel SymbolModel IdentifyModel IdentifySpec IdentifyProofs IdentifyProps AnnotateSpec AnnotateProofs
  ExecModel ExecSpec OptimizeModel OptimizeSpec.
Import ListNotations.

Section Proofs.
Context {A : Type}.
Implicit Types (m : list (stmt A)) (e : expr A) (o : @opt A).

(** ** Uses *)
Fixpoint expr_uses (e : expr A) : list (nat * string) :=
  match e with
  | Name v x => [(v, x)]
  | Const _ _ => []
  | Operation _ _ args => flat_map expr_uses args
  | Subscript _ e s => expr_uses e ++ expr_uses s
  | Attribute _ e _ => expr_uses e
  end.
Definition stmt_uses (t : stmt A) : list (nat * string) := match t with Assign _ _ e | Expr e => expr_uses e | _ => [] end.
Definition module_uses m := flat_map stmt_uses m.

Lemma flat_map_map {X Y Z} (f : Y -> Z) (g : X -> list Y) l : map f (flat_map g l) = flat_map (fun x => map f (g x)) l.
Proof. induction l as [|x l IH]; cbn; auto. rewrite map_app, IH. auto. Qed.
Lemma flat_map_all {X Y} (f g : X -> list Y) l : Forall (fun x => f x = g x) l -> flat_map f l = flat_map g l.
Proof. induction 1 as [|x l H _ IH]; cbn; auto. rewrite H, IH. auto. Qed.

Lemma expr_uses_names e : map snd (expr_uses e) = expr_names e.
Proof.
  induction e as [i x|i v|i f args IH|i e sel IHe IHs|i e mm IHe] using expr_induction; cbn; auto.
  - rewrite flat_map_map. apply flat_map_all; auto.
  - rewrite map_app, IHe, IHs. auto.
Qed.
Lemma module_uses_names m : map snd (module_uses m) = names_used m.
Proof.
  unfold module_uses, names_used. rewrite flat_map_map. apply flat_map_all. apply Forall_forall. intros [v x e|e|c t f|c t f] _; cbn; auto; apply expr_uses_names.
Qed.
Lemma expr_uses_nodes e v x : In (v, x) (expr_uses e) -> In v (expr_nodes e).
Proof.
  induction e as [i y|i w|i f args IH|i e sel IHe IHs|i e mm IHe] using expr_induction; cbn; intros I.
  - destruct I as [[= <- <-]|[]]. auto.
  - destruct I.
  - apply in_app_iff. left. apply in_flat_map in I as (a & I1 & I2). apply in_flat_map. exists a. split; auto. rewrite Forall_forall in IH. auto.
  - rewrite !in_app_iff in *. tauto.
  - rewrite !in_app_iff in *. tauto.
Qed.

(** ** Links of a settled module *)
Fixpoint target_of m (x : string) : option nat :=
  match m with
  | Assign v y _ :: m' => if String.eqb y x then Some v else target_of m' x
  | _ :: m' => target_of m' x
  | [] => None
  end.
Lemma target_none m x : target_of m x = None <-> ~ In x (names_assigned m).
Proof.
  induction m as [|[v y e|e|c t f|c t f] m IH]; cbn; try tauto. destruct (String.eqb_spec y x) as [->|N]; [intuition discriminate|].
  rewrite IH. intuition.
Qed.

Definition final (n : scoping) m : scoping := fold_left (fun n t => after n t) m n.
Arguments final : simpl never.
Lemma final_cons n t m x : final n (t :: m) x = final (after n t) m x.
Proof. reflexivity. Qed.
Lemma final_unassigned m : forall n x, ~ In x (names_assigned m) -> final n m x = n x.
Proof.
  induction m as [|t m IH]; intros n x I; auto. rewrite final_cons, IH.
  - destruct t as [v y e|e|c t f|c t f]; cbn; auto. unfold define. destruct (String.eqb_spec x y) as [->|]; auto. exfalso. apply I. cbn. auto.
  - intros J. apply I. unfold names_assigned in *. cbn. apply in_app_iff. auto.
Qed.
Lemma final_assigned m : forall n x, settled m -> final n m x = match target_of m x with Some t => Some t | None => n x end.
Proof.
  induction m as [|t m IH]; intros n x S; auto. destruct t as [v y e|e|c t f|c t f]; cbn in S; try contradiction; rewrite final_cons; cbn [target_of after].
  - destruct S as (S1 & _ & S2). rewrite IH by auto. unfold define. rewrite (String.eqb_sym y x). destruct (String.eqb_spec x y) as [->|]; auto.
    apply target_none in S1. rewrite S1. auto.
  - apply IH. tauto.
Qed.

Definition final_links (N : scoping) (t : stmt A) : list (nat * option nat) :=
  match t with Assign v _ e => expr_links N e ++ [(v, Some v)] | Expr e => expr_links N e | _ => [] end.
Lemma expr_links_ext (n n' : scoping) e : (forall y, In y (expr_names e) -> n y = n' y) -> expr_links n e = expr_links n' e.
Proof.
  induction e as [i x|i v|i f args IH|i e sel IHe IHs|i e mm IHe] using expr_induction; cbn; intros H; auto.
  - rewrite H; auto.
  - apply flat_map_all. rewrite Forall_forall in *. intros a I. apply IH; auto. intros y Y. apply H. apply in_flat_map; eauto.
  - rewrite IHe, IHs; auto; intros y Y; apply H, in_app_iff; auto.
Qed.
Lemma links_final m : forall n, settled m -> links n m = flat_map (final_links (final n m)) m.
Proof.
  induction m as [|t m IH]; intros n S; auto.
  destruct t as [v y e|e|c t f|c t f]; cbn in S; try contradiction; cbn [links flat_map stmt_links final_links]; rewrite IH by tauto.
  - f_equal. f_equal. apply expr_links_ext. intros z Z. destruct S as (S1 & S2 & S3). destruct (S2 z Z) as [Z1 Z2]. rewrite final_cons.
    rewrite final_unassigned by auto. cbn. unfold define. destruct (String.eqb_spec z y); [contradiction|]. auto.
  - f_equal. apply expr_links_ext. intros z Z. rewrite final_cons, final_unassigned by (apply S; auto). auto.
Qed.

Lemma expr_links_in (N : scoping) e v x : In (v, x) (expr_uses e) -> In (v, N x) (expr_links N e).
Proof.
  induction e as [i y|i w|i f args IH|i e sel IHe IHs|i e mm IHe] using expr_induction; cbn; intros I; auto.
  - destruct I as [[= <- <-]|[]]. auto.
  - apply in_flat_map in I as (a & I1 & I2). apply in_flat_map. exists a. split; auto. rewrite Forall_forall in IH. auto.
  - rewrite !in_app_iff in *. tauto.
Qed.
Lemma links_in (N : scoping) m v x : In (v, x) (module_uses m) -> In (v, N x) (flat_map (final_links N) m).
Proof.
  intros I. apply in_flat_map in I as (t & T & I). apply in_flat_map. exists t. split; auto.
  destruct t as [w y e|e|c t f|c t f]; cbn in *; try contradiction; [apply in_app_iff; left|]; apply expr_links_in; auto.
Qed.

Lemma referring_app d (l l' : list (nat * option nat)) : referring d (l ++ l') = referring d l ++ referring d l'.
Proof. apply flat_map_app. Qed.
Lemma referring_one d v t : referring d [(v, t)] =
  if (match t with Some d' => Nat.eqb d' d | None => false end) && negb (Nat.eqb v d) then [v] else [].
Proof. unfold referring. cbn. destruct t; cbn; rewrite ?app_nil_r; auto. Qed.
Arguments referring : simpl never.

(** [d] is the target that [x] and no other name refers to; the vertices are no targets. *)
Lemma referring_expr (N : scoping) d x e : (forall y, N y = Some d <-> y = x) -> ~ In d (expr_nodes e) ->
  length (referring d (expr_links N e)) = count_occ string_dec (expr_names e) x.
Proof.
  intros H. induction e as [i y|i w|i f args IH|i e sel IHe IHs|i e mm IHe] using expr_induction; cbn; intros D; auto.
  - destruct (string_dec y x) as [->|NE].
    + rewrite referring_one, (proj2 (H x) eq_refl), Nat.eqb_refl. destruct (Nat.eqb_spec i d); [tauto|]. auto.
    + rewrite referring_one. destruct (N y) as [d'|] eqn:E; auto. destruct (Nat.eqb_spec d' d) as [->|]; auto. apply H in E. contradiction.
  - assert (D' : ~ In d (flat_map expr_nodes args)) by (intros X; apply D, in_app_iff; auto). clear D.
    induction IH as [|a args Ha _ IH]; cbn; auto. cbn in D'. rewrite in_app_iff in D'.
    rewrite referring_app, app_length, count_occ_app, Ha, IH; tauto.
  - rewrite referring_app, app_length, count_occ_app, IHe, IHs; auto; intros X; apply D; rewrite !in_app_iff; auto.
  - apply IHe. intros X. apply D, in_app_iff; auto.
Qed.
Lemma referring_module (N : scoping) d x m : (forall y, N y = Some d <-> y = x) -> 
  (forall t, In t m -> match t with Assign _ _ e | Expr e => ~ In d (expr_nodes e) | _ => True end) ->
  length (referring d (flat_map (final_links N) m)) = count_occ string_dec (names_used m) x.
Proof.
  intros H D. unfold names_used. induction m as [|t m IH]; auto. cbn [flat_map]. rewrite referring_app, app_length, count_occ_app, IH by (intros; apply D; right; auto).
  f_equal. pose proof (D t (or_introl eq_refl)) as Dt. destruct t as [v y e|e|c t f|c t f]; cbn [final_links]; auto; try (apply referring_expr; auto).
  rewrite referring_app, app_length, (referring_expr N d x e H Dt), referring_one. destruct (Nat.eqb_spec v d) as [->|]; cbn; lia.
Qed.

Lemma expr_vertices_nodes e v : In v (expr_vertices e) -> In v (expr_nodes e).
Proof.
  induction e as [i y|i w|i f args IH|i e sel IHe IHs|i e mm IHe] using expr_induction; cbn; intros I; auto.
  - apply in_app_iff. left. apply in_flat_map in I as (a & I1 & I2). apply in_flat_map. exists a. split; auto. rewrite Forall_forall in IH. auto.
  - rewrite !in_app_iff in *. tauto.
  - rewrite !in_app_iff in *. tauto.
Qed.
Lemma nodup_apart {X} (l l' : list X) : NoDup (l ++ l') <-> NoDup l /\ NoDup l' /\ forall x, In x l -> ~ In x l'.
Proof.
  induction l as [|y l IH]; cbn.
  - split; [intros H|intros (_ & H & _)]; auto. repeat split; auto. constructor.
  - split.
    + intros N. inversion N as [|? ? N1 N2]; subst. apply IH in N2 as (H1 & H2 & H3). rewrite in_app_iff in N1. repeat split; auto.
      * constructor; tauto.
      * intros x [EQ|I]; [subst; tauto|auto].
    + intros (H1 & H2 & H3). inversion H1 as [|? ? N1 N2]; subst. constructor.
      * rewrite in_app_iff. intros [I|I]; auto. apply (H3 y); auto.
      * apply IH. repeat split; auto.
Qed.
Lemma expr_vertices_nodup e : NoDup (expr_nodes e) -> NoDup (expr_vertices e).
Proof.
  induction e as [i y|i w|i f args IH|i e sel IHe IHs|i e mm IHe] using expr_induction; cbn; intros N; auto.
  - constructor.
  - apply nodup_apart in N as (N & _ & _). induction IH as [|a args Ha _ IH]; cbn in *; [constructor|].
    apply nodup_apart in N as (N1 & N2 & N3). apply nodup_apart. split; auto. split; auto. intros v I J.
    apply (N3 v); [apply expr_vertices_nodes; auto|]. apply in_flat_map in J as (b & J1 & J2). apply in_flat_map. exists b. split; auto. apply expr_vertices_nodes; auto.
  - apply nodup_apart in N as (N1 & N & N3). apply nodup_apart in N as (N2 & _ & _). apply nodup_apart. split; auto. split; auto.
    intros v I J. apply (N3 v); [apply expr_vertices_nodes; auto|]. apply in_app_iff. left. apply expr_vertices_nodes; auto.
  - apply nodup_apart in N as (N & _). auto.
Qed.

Lemma settled_straight (l : list (stmt A)) : settled l -> straight l.
Proof. unfold straight. induction l as [|[v y f|f|c a b|c a b] l IH]; cbn; try tauto; constructor; tauto. Qed.

(** ** Names that are visited *)
Section Module.
Variable m : list (stmt A).
Hypothesis STR : straight m.
Hypothesis SET : settled m.
Hypothesis NDN : NoDup (nodes m).

Lemma straight_vertices_nodup : NoDup (vertices m).
Proof.
  clear SET. unfold vertices, nodes in *. induction m as [|t l IH]; cbn in *; [constructor|]. inversion STR as [|? ? St F]; subst.
  apply nodup_apart in NDN as (N1 & N2 & N3). specialize (IH F N2).
  assert (VN : forall (t : stmt A) v, match t with Assign _ _ _ | Expr _ => True | _ => False end -> In v (stmt_vertices t) -> In v (stmt_nodes t)).
  { intros [w y e|e|c a b|c a b] v T; try contradiction; cbn; rewrite ?in_app_iff; [intros [I|I]; auto; left|intros I]; apply expr_vertices_nodes; auto. }
  apply nodup_apart. split; [|split; auto].
  - destruct t as [w y e|e|c a b|c a b]; try contradiction; cbn in *; [|apply expr_vertices_nodup; auto].
    apply nodup_apart in N1 as (M1 & M2 & M3). apply nodup_apart. split; [apply expr_vertices_nodup; auto|]. split; auto. intros v I. apply M3. apply expr_vertices_nodes; auto.
  - intros v I J. apply (N3 v); [apply VN; auto|]. apply in_flat_map in J as (u & J1 & J2). apply in_flat_map. exists u. split; auto. apply VN; auto.
    rewrite Forall_forall in F. apply F; auto.
Qed.

Lemma target_in x d : target_of m x = Some d -> exists e, In (Assign d x e) m /\ assigned m x = Some e.
Proof.
  clear. induction m as [|[v y e|e|c t f|c t f] l IH]; cbn; try discriminate; try (intros H; destruct (IH H) as (e' & I & E); eauto).
  destruct (String.eqb_spec y x) as [->|].
  - intros [= ->]. eauto.
  - intros H. destruct (IH H) as (e' & I & E). eauto.
Qed.

(** Two different assignments have different targets. *)
Lemma target_name d x e x' e' : In (Assign d x e) m -> In (Assign d x' e') m -> x = x' /\ e = e'.
Proof.
  intros I J. unfold nodes in NDN. clear STR SET. induction m as [|t l IH]; [destruct I|]. cbn in NDN. apply nodup_apart in NDN as (N1 & N2 & N3).
  assert (X : forall y f, In (Assign d y f) l -> In d (flat_map stmt_nodes l)).
  { intros y f K. apply in_flat_map. exists (Assign d y f). split; auto. cbn. apply in_app_iff. cbn. auto. }
  assert (Y : forall y f, t = Assign d y f -> In d (stmt_nodes t)).
  { intros y f ->. cbn. apply in_app_iff. cbn. auto. }
  destruct I as [I|I], J as [J|J].
  - rewrite I in J. injection J as -> ->. auto.
  - exfalso. apply (N3 d); eauto.
  - exfalso. apply (N3 d); eauto.
  - auto.
Qed.
Lemma target_apart d x e t : In (Assign d x e) m -> In t m -> match t with Assign _ _ e' | Expr e' => ~ In d (expr_nodes e') | _ => True end.
Proof.
  intros I J. unfold nodes in NDN. clear STR SET. induction m as [|u l IH]; [destruct I|]. cbn in NDN. apply nodup_apart in NDN as (N1 & N2 & N3).
  assert (X : In (Assign d x e) l -> In d (flat_map stmt_nodes l)).
  { intros K. apply in_flat_map. exists (Assign d x e). split; auto. cbn. apply in_app_iff. cbn. auto. }
  assert (Y : In t l -> match t with Assign _ _ e' | Expr e' => forall v, In v (expr_nodes e') -> In v (flat_map stmt_nodes l) | _ => True end).
  { intros K. destruct t as [w y f|f|c a b|c a b]; auto; intros v V; apply in_flat_map; eexists; split; try exact K; cbn; rewrite ?in_app_iff; auto. }
  destruct I as [->|I], J as [<-|J].
  - cbn in *. apply nodup_apart in N1 as (_ & _ & N1). intros K. apply (N1 d K). cbn. auto.
  - destruct t as [w y f|f|c a b|c a b]; auto; intros K; apply (N3 d); [cbn; apply in_app_iff; cbn; auto|auto|cbn; apply in_app_iff; cbn; auto|auto].
  - destruct u as [w y f|f|c a b|c a b]; auto; intros K; apply (N3 d); auto; cbn; rewrite ?in_app_iff; auto.
  - exact (IH N2 I J).
Qed.

Lemma find_value_in d x e : In (Assign d x e) m -> value_of m d = Some e.
Proof.
  intros I. unfold value_of, nodes in *. clear SET. induction m as [|t l IH]; [destruct I|]. inversion STR as [|? ? St F]; subst. cbn in NDN. apply nodup_apart in NDN as (N1 & N2 & N3).
  destruct t as [w y f|f|c a b|c a b]; try contradiction; cbn.
  - destruct I as [[= -> -> ->]|I]; [rewrite Nat.eqb_refl; auto|]. destruct (Nat.eqb_spec w d) as [->|]; [|auto].
    exfalso. apply (N3 d); [cbn; apply in_app_iff; cbn; auto|]. apply in_flat_map. exists (Assign d x e). split; auto. cbn. apply in_app_iff. cbn. auto.
  - destruct I as [I|I]; [discriminate|]. auto.
Qed.

Lemma visited_name (s : ident) v x o : identify_module m identify_initial = Some s -> In (v, x) (module_uses m) ->
  optimize_name s (value_of m) v o =
    Some (if temporary m x then match assigned m x with Some e => register_expression_for_inlining v e o | None => o end else o).
Proof.
  intros E I. destruct (C51_links A m straight_vertices_nodup) as (s' & E' & _ & D & _ & U & _). rewrite E in E'. injection E' as <-.
  rewrite links_final in D, U by auto. set (N := final nothing m) in *. unfold optimize_name.
  rewrite (D v (N x) (links_in N m v x I)). unfold N at 1. rewrite final_assigned by auto. destruct (target_of m x) as [d|] eqn:T.
  - cbn [option_list]. destruct (target_in x d T) as (e & IA & AS).
    assert (NX : forall y, N y = Some d <-> y = x).
    { intros y. unfold N. rewrite final_assigned by auto. split.
      - destruct (target_of m y) as [d'|] eqn:T'; [|discriminate]. intros [= ->]. destruct (target_in y d T') as (e' & IA' & _).
        destruct (target_name d y e' x e IA' IA); auto.
      - intros ->. rewrite T. auto. }
    assert (LEN : length (uses_of s d) = count_occ string_dec (names_used m) x).
    { rewrite U. apply referring_module; auto. intros t J. eapply target_apart; eauto. }
    assert (V : In v (uses_of s d)).
    { rewrite U. unfold referring. apply in_flat_map. exists (v, N x). split; [apply links_in; auto|]. cbn. rewrite (proj2 (NX x) eq_refl), Nat.eqb_refl. cbn.
      destruct (Nat.eqb_spec v d) as [->|]; cbn; auto. exfalso. apply in_flat_map in I as (t & J & K). pose proof (target_apart d x e t IA J) as TA.
      destruct t as [w y f|f|c a b|c a b]; cbn in K; try contradiction; apply expr_uses_nodes in K; contradiction. }
    assert (AE : existsb (String.eqb x) (names_assigned m) = true).
    { apply existsb_exists. exists x. split; [|apply String.eqb_refl]. unfold names_assigned. apply in_flat_map. exists (Assign d x e). cbn. auto. }
    unfold temporary. rewrite AE, AS, <- LEN. cbn [andb]. destruct (uses_of s d) as [|u [|u' l]]; try (destruct V; fail); auto.
    destruct V as [->|[]]. rewrite Nat.eqb_refl, (find_value_in d x e IA). auto.
  - cbn [option_list nothing]. apply target_none in T. unfold temporary.
    destruct (existsb (String.eqb x) (names_assigned m)) eqn:X; auto. exfalso. apply T. apply existsb_exists in X as (y & Y & X). apply String.eqb_eq in X. subst; auto.
Qed.

(** ** The passes *)
Variable s : ident.
Hypothesis IDS : identify_module m identify_initial = Some s.
Notation ustmt := (using_stmt s (value_of m)).
Notation oexpr := (optimize_expr s (value_of m)).
Notation oname := (optimize_name s (value_of m)).

Definition quiet e : Prop := forall v x, In (v, x) (expr_uses e) -> In (v, x) (module_uses m) /\ temporary m x = false.
Lemma quiet_expr e o : quiet e -> oexpr e o = Some o.
Proof.
  assert (VN := visited_name s). revert o. induction e as [i y|i w|i f args IH|i e sel IHe IHs|i e mm IHe] using expr_induction; cbn; intros o Q; auto.
  - destruct (Q i y (or_introl eq_refl)) as [I T]. rewrite (VN i y o IDS I), T. auto.
  - revert o. unfold quiet in Q. cbn in Q. induction IH as [|a args Ha _ IH]; cbn; intros o; auto. rewrite Ha by (intros v x X; apply Q; cbn; apply in_app_iff; auto).
    apply IH. intros v x X. apply Q. cbn. apply in_app_iff. auto.
  - rewrite IHe; [apply IHs|]; intros v x X; apply Q; cbn; apply in_app_iff; auto.
Qed.

Definition silent (t : stmt A) : Prop := match t with Assign _ _ e | Expr e => quiet e | _ => False end.
Lemma silent_using l : Forall silent l -> forall o, inline_expressions o = [] -> changes ustmt l o = Some (l, o).
Proof.
  induction 1 as [|t l Q _ IH]; intros o O; cbn; auto. destruct t as [v x e|e|c a b|c a b]; try contradiction; cbn in *; rewrite quiet_expr by auto.
  - rewrite O. cbn. rewrite IH; auto.
  - cbn. rewrite IH; auto.
Qed.
Lemma none_defining l : Forall silent l -> forall o, inlined_expressions o = [] -> changes (defining_stmt) l o = Some (l, o).
Proof.
  induction 1 as [|t l Q _ IH]; intros o O; cbn; auto. destruct t as [v x e|e|c a b|c a b]; try contradiction; cbn in *; rewrite ?O; cbn; rewrite IH; auto.
Qed.
Lemma silent_rounds fuel l : Forall silent l -> optimize_rounds s (value_of m) (S fuel) l = Some l.
Proof.
  intros Q. cbn. rewrite silent_using by auto. rewrite none_defining by auto. cbn. f_equal. clear Q. induction l as [|t l IH]; cbn; f_equal; auto.
Qed.

(** What the first pass makes of a statement. *)
Definition copy_of (t : stmt A) : option (string * expr A) :=
  match t with
  | Assign _ _ (Name _ y) => if temporary m y then match assigned m y with Some e => Some (y, e) | None => None end else None
  | _ => None
  end.
Definition substituted (t : stmt A) : stmt A :=
  match t with Assign v x e => match copy_of t with Some (_, e') => Assign v x e' | None => t end | _ => t end.
Definition copies l := flat_map (fun t => match copy_of t with Some p => [p] | None => [] end) l.

Hypothesis OC : only_copied m.

Lemma uses_in_module t v x : In t m -> In (v, x) (stmt_uses t) -> In (v, x) (module_uses m).
Proof. intros I J. apply in_flat_map. eauto. Qed.

Lemma temporary_assigned x : temporary m x = true -> exists d e, In (Assign d x e) m /\ assigned m x = Some e /\ target_of m x = Some d.
Proof.
  unfold temporary. intros T. apply andb_true_iff in T as [T _]. apply existsb_exists in T as (y & Y & E). apply String.eqb_eq in E. subst y.
  destruct (target_of m x) as [d|] eqn:D.
  - destruct (target_in x d D) as (e & I & AS). eauto.
  - apply target_none in D. contradiction.
Qed.
Lemma assigned_in l x e : assigned l x = Some e -> exists d, In (Assign d x e) l.
Proof.
  induction l as [|[v y f|f|c a b|c a b] l IH]; cbn; try discriminate; try (intros H; destruct (IH H) as (d & I); eauto).
  destruct (String.eqb_spec y x) as [->|]; [intros [= ->]; eauto|]. intros H; destruct (IH H) as (d & I); eauto.
Qed.

(** Expressions that are no copies of temporary names. *)
Lemma quiet_assign v x e : In (Assign v x e) m -> copy_of (Assign v x e) = None -> quiet e.
Proof.
  intros I C. assert (OC' := proj1 (Forall_forall _ _) OC _ I). cbn in OC', C.
  intros w y U. split; [eapply uses_in_module; eauto|].
  assert (Y : In y (expr_names e)) by (rewrite <- expr_uses_names; change y with (snd (w, y)); apply in_map; auto).
  destruct e as [i z|i c|i f args|i e sel|i e mm]; try (apply OC'; exact Y).
  destruct Y as [->|[]]. destruct (temporary m y) eqn:T; auto. destruct (temporary_assigned y T) as (d & e' & _ & AS & _). rewrite AS in C. discriminate.
Qed.
Lemma quiet_expr_stmt e : In (Expr e) m -> quiet e.
Proof.
  intros I. assert (OC' := proj1 (Forall_forall _ _) OC _ I). cbn in OC'. intros w y U. split; [eapply uses_in_module; eauto|].
  apply OC'. rewrite <- expr_uses_names. change y with (snd (w, y)). apply in_map. auto.
Qed.
(** The expression of a temporary name is no copy of a temporary name. *)
Lemma quiet_temporary y e : temporary m y = true -> assigned m y = Some e -> quiet e.
Proof.
  intros T AS. destruct (assigned_in m y e AS) as (d & I). apply (quiet_assign d y); auto.
  assert (OC' := proj1 (Forall_forall _ _) OC _ I). cbn in OC'. destruct e as [i z|i c|i f args|i e sel|i e mm]; auto. cbn.
  destruct (temporary m z) eqn:Z; auto. rewrite (OC' eq_refl) in T. discriminate.
Qed.

Lemma first_using l : incl l m -> forall o, inline_expressions o = [] ->
  changes ustmt l o = Some (map substituted l,
    {| inline_expressions := []; inlined_expressions := inlined_expressions o ++ map snd (copies l);
       superfluous_statements := superfluous_statements o |}).
Proof.
  induction l as [|t l IH]; intros I o O; cbn [changes map].
  - destruct o; cbn in *. rewrite O, app_nil_r. auto.
  - assert (It : In t m) by (apply I; left; auto). assert (Il : incl l m) by (intros u U; apply I; right; auto). specialize (IH Il).
    assert (ST := proj1 (Forall_forall _ _) STR _ It). unfold copies. cbn [flat_map]. fold (copies l).
    destruct t as [v x e|e|c a b|c a b]; try contradiction; cbn [using_stmt substituted].
    + destruct (copy_of (Assign v x e)) as [[y e']|] eqn:C.
      * destruct e as [w z|w c|w f args|w e sel|w e mm]; try discriminate. cbn in C. destruct (temporary m z) eqn:T; [|discriminate].
        destruct (assigned m z) as [e1|] eqn:AS; [|discriminate]. injection C as -> ->. cbn [optimize_expr].
        rewrite (visited_name s w y o IDS) by (eapply uses_in_module; [exact It|cbn; auto]). rewrite T, AS. cbn. rewrite Nat.eqb_refl, O. cbn.
        rewrite IH by auto. cbn. rewrite <- app_assoc. auto.
      * rewrite (quiet_expr e) by (eapply quiet_assign; eauto). rewrite O. cbn. rewrite IH by auto. auto.
    + rewrite (quiet_expr e) by (apply quiet_expr_stmt; auto). cbn. rewrite IH by auto. auto.
Qed.

Lemma settled_suffix (pre l : list (stmt A)) : settled (pre ++ l) -> settled l.
Proof. induction pre as [|[v x e|e|c a b|c a b] pre IH]; cbn; try tauto. Qed.

Lemma expr_id_nodes e : In (expr_id e) (expr_nodes e).
Proof. destruct e; cbn; rewrite ?in_app_iff; cbn; auto. Qed.
Lemma value_id d x e d' x' e' : In (Assign d x e) m -> In (Assign d' x' e') m -> expr_id e = expr_id e' -> x = x' /\ e = e'.
Proof.
  intros I J E. unfold nodes in NDN. clear STR SET IDS OC. induction m as [|t l IH]; [destruct I|]. cbn in NDN. apply nodup_apart in NDN as (N1 & N2 & N3).
  assert (X : forall d y f, In (Assign d y f) l -> In (expr_id f) (flat_map stmt_nodes l)).
  { intros w y f K. apply in_flat_map. exists (Assign w y f). split; auto. cbn. apply in_app_iff. left. apply expr_id_nodes. }
  assert (Y : forall d y f, t = Assign d y f -> In (expr_id f) (stmt_nodes t)).
  { intros w y f ->. cbn. apply in_app_iff. left. apply expr_id_nodes. }
  destruct I as [I|I], J as [J|J].
  - rewrite I in J. injection J as -> -> ->. auto.
  - exfalso. apply (N3 (expr_id e)); eauto. rewrite E. eauto.
  - exfalso. apply (N3 (expr_id e)); eauto. rewrite E. eauto.
  - apply IH; auto.
Qed.

Lemma in_copies l p : In p (copies l) <-> exists t, In t l /\ copy_of t = Some p.
Proof.
  unfold copies. rewrite in_flat_map. split; intros (t & I & C); exists t; split; auto.
  - destruct (copy_of t); [|destruct C]. destruct C as [->|[]]. auto.
  - rewrite C. cbn. auto.
Qed.
Lemma copy_of_facts t y e : copy_of t = Some (y, e) ->
  temporary m y = true /\ assigned m y = Some e /\ exists v x w, t = Assign v x (Name w y).
Proof.
  destruct t as [v x [w z|w c|w f args|w e' sel|w e' mm]|e'|c a b|c a b]; cbn; try discriminate. destruct (temporary m z) eqn:T; [|discriminate].
  destruct (assigned m z) as [e1|] eqn:AS; [|discriminate]. intros [= -> ->]. eauto 8.
Qed.
Lemma copies_count l y : count_occ string_dec (map fst (copies l)) y <= count_occ string_dec (names_used l) y.
Proof.
  unfold copies, names_used. induction l as [|t l IH]; [auto|]. cbn [flat_map]. rewrite map_app, !count_occ_app.
  apply Nat.add_le_mono; auto. destruct (copy_of t) as [[z e]|] eqn:C; cbn [map fst]; [|apply Nat.le_0_l].
  destruct (copy_of_facts t z e C) as (_ & _ & v & x & w & ->). cbn [expr_names]. auto.
Qed.
Lemma copies_nodup : NoDup (map fst (copies m)).
Proof.
  apply (NoDup_count_occ string_dec). intros y. destruct (in_dec string_dec y (map fst (copies m))) as [I|NI].
  - apply in_map_iff in I as ([z e] & <- & I). apply in_copies in I as (t & It & C). destruct (copy_of_facts t z e C) as (T & _ & _).
    unfold temporary in T. apply andb_true_iff in T as [_ T]. apply Nat.eqb_eq in T. cbn [fst]. rewrite <- T. apply copies_count.
  - rewrite (count_occ_not_In string_dec) in NI. rewrite NI. auto.
Qed.
Lemma copies_all y : temporary m y = true -> In y (map fst (copies m)).
Proof.
  intros T. destruct (temporary_assigned y T) as (d & e & _ & AS & _). assert (U : In y (names_used m)).
  { unfold temporary in T. apply andb_true_iff in T as [_ T]. apply Nat.eqb_eq in T. apply (count_occ_In string_dec). rewrite T. auto. }
  unfold names_used in U. apply in_flat_map in U as (t & It & U). assert (OC' := proj1 (Forall_forall _ _) OC _ It).
  assert (F : forall e, In y (expr_names e) -> (forall y, In y (expr_names e) -> temporary m y = false) -> False).
  { intros e0 I0 F. rewrite (F y I0) in T. discriminate. }
  apply in_map_iff. destruct t as [v x [w z|w c|w f args|w e' sel|w e' mm]|e'|c a b|c a b]; cbn in OC'; try (exfalso; eapply F; eassumption); try (destruct U; fail).
  destruct U as [->|[]]. exists (y, e). split; auto. apply in_copies. eexists. split; [exact It|]. cbn. rewrite T, AS. auto.
Qed.

Lemma remove_none i (R : list (string * expr A)) : (forall p, In p R -> expr_id (snd p) <> i) -> remove_expression i (map snd R) = None.
Proof.
  induction R as [|p R IH]; intros H; cbn; auto. destruct (Nat.eqb_spec (expr_id (snd p)) i) as [E|]; [exfalso; apply (H p); cbn; auto|].
  rewrite IH; auto. intros q Q. apply H. cbn; auto.
Qed.
Lemma remove_pair x e (R : list (string * expr A)) : In (x, e) R -> NoDup (map fst R) -> (forall p, In p R -> expr_id (snd p) = expr_id e -> fst p = x) ->
  exists R', remove_expression (expr_id e) (map snd R) = Some (map snd R') /\ NoDup (map fst R') /\
    forall p, In p R' <-> In p R /\ fst p <> x.
Proof.
  induction R as [|p R IH]; intros I N H; [destruct I|]. cbn in N. inversion N as [|? ? N1 N2]; subst. cbn.
  destruct (Nat.eqb_spec (expr_id (snd p)) (expr_id e)) as [E|NE].
  - assert (PX := H p (or_introl eq_refl) E). exists R. split; [auto|]. split; [auto|]. intros q. split.
    + intros Q. split; [right; auto|]. intros F. apply N1. rewrite PX, <- F. apply in_map; auto.
    + intros [[->|K] F]; [contradiction|auto].
  - destruct I as [->|I]; [contradiction|]. destruct (IH I N2 (fun q Q => H q (or_intror Q))) as (R' & E & N' & IN). exists (p :: R'). rewrite E. cbn.
    split; [auto|]. split.
    + constructor; auto. intros K. apply in_map_iff in K as (q & Q1 & Q2). apply IN in Q2 as [Q2 _]. apply N1. rewrite <- Q1. apply in_map; auto.
    + intros q. split.
      * intros [->|K]; [|apply IN in K; tauto]. split; auto. intros F. apply N1. rewrite F. change x with (fst (x, e)). apply in_map; auto.
      * intros [[->|K] F]; auto. right. apply IN; auto.
Qed.

Definition temporary_targets l := flat_map (fun t : stmt A => match t with Assign v x _ => if temporary m x then [v] else [] | _ => [] end) l.

Lemma substituted_assign v x e : exists e', substituted (Assign v x e) = Assign v x e'.
Proof. unfold substituted. destruct (copy_of _) as [[? ?]|]; eauto. Qed.

Lemma first_defining l : forall pre R S, m = pre ++ l -> NoDup (map fst R) ->
  (forall y e, In (y, e) R <-> temporary m y = true /\ assigned m y = Some e /\ In y (names_assigned l)) ->
  changes defining_stmt (map substituted l) {| inline_expressions := []; inlined_expressions := map snd R; superfluous_statements := S |} =
    Some (map substituted l, {| inline_expressions := []; inlined_expressions := []; superfluous_statements := S ++ temporary_targets l |}).
Proof.
  induction l as [|t l IH]; intros pre R S M N IN; cbn [map changes].
  - assert (R = []) as ->. { destruct R as [|[y e] R]; auto. exfalso. apply (IN y e). left; auto. } cbn. rewrite app_nil_r. auto.
  - assert (It : In t m) by (rewrite M; apply in_app_iff; right; left; auto).
    assert (ST := proj1 (Forall_forall _ _) STR _ It). assert (M' : m = (pre ++ [t]) ++ l) by (rewrite <- app_assoc; auto).
    assert (SS : settled (t :: l)) by (apply (settled_suffix pre); rewrite <- M; auto).
    unfold temporary_targets. cbn [flat_map]. fold (temporary_targets l).
    destruct t as [v x e|e|c a b|c a b]; try contradiction.
    + assert (DS : forall e', substituted (Assign v x e) = Assign v x e' -> 
        changes defining_stmt (Assign v x e' :: map substituted l) {| inline_expressions := []; inlined_expressions := map snd R; superfluous_statements := S |} =
        Some (Assign v x e' :: map substituted l, {| inline_expressions := []; inlined_expressions := [];
          superfluous_statements := S ++ (if temporary m x then [v] else []) ++ temporary_targets l |})).
      2:{ destruct (substituted_assign v x e) as (e' & SU). rewrite SU. apply DS; auto. }
      intros e' SU. cbn [changes defining_stmt]. cbn [inlined_expressions inline_expressions superfluous_statements].
      cbn in SS. destruct SS as (S1 & S2 & S3). destruct (temporary m x) eqn:T.
      * assert (C : copy_of (Assign v x e) = None).
        { destruct (copy_of (Assign v x e)) as [[y f]|] eqn:C; auto. exfalso. destruct (copy_of_facts _ y f C) as (Ty & _ & v0 & x0 & w & EQ).
          injection EQ as <- <- ->. assert (OC' := proj1 (Forall_forall _ _) OC _ It). cbn in OC'. rewrite (OC' Ty) in T. discriminate. }
        assert (e' = e) as ->. { unfold substituted in SU. rewrite C in SU. injection SU; auto. }
        assert (AS : assigned m x = Some e).
        { destruct (temporary_assigned x T) as (d & f & I & AS & TT). rewrite AS. f_equal. clear IN SU IH.
          assert (TV : target_of m x = Some v).
          { assert (FT := final_assigned m nothing x SET). assert (~ In x (names_assigned pre)).
            { clear -M SET. subst m. induction pre as [|[w y g|g|c a b|c a b] pre IHp]; cbn in *; auto; try tauto.
              destruct SET as (H1 & _ & H3). intros [->|K]; [|apply IHp; auto]. apply H1. unfold names_assigned. rewrite flat_map_app. apply in_app_iff. right. cbn. auto. }
            rewrite M. clear -H. induction pre as [|[w y g|g|c a b|c a b] pre IHp]; cbn in *; try (apply IHp; auto; fail).
            - rewrite String.eqb_refl. auto.
            - destruct (String.eqb_spec y x) as [->|]; [exfalso; apply H; auto|]. apply IHp. auto. }
          rewrite TV in TT. injection TT as <-. destruct (target_name v x f x e I It); auto. }
        assert (INX : In (x, e) R). { apply IN. split; auto. split; auto. cbn. auto. }
        destruct (remove_pair x e R INX N) as (R' & RE & N' & IN').
        { intros [y f] P E. cbn in *. apply IN in P as (Ty & Ay & _). destruct (assigned_in m y f Ay) as (d & I). apply (value_id d y f v x e I It E). }
        rewrite RE. rewrite (IH (pre ++ [Assign v x e]) R' (S ++ [v]) M' N').
        { rewrite <- app_assoc. auto. }
        intros y f. rewrite IN', IN. cbn. split.
        -- intros ((Ty & Ay & [->|I]) & F); [contradiction|auto].
        -- intros (Ty & Ay & I). repeat split; auto. intros ->. contradiction.
      * rewrite remove_none.
        { rewrite (IH (pre ++ [Assign v x e]) R S M' N); auto. intros y f. rewrite IN. cbn. split; [|tauto].
          intros (Ty & Ay & [->|I]); auto. rewrite T in Ty. discriminate. }
        intros [z f] P E. cbn in E. apply IN in P as (Tz & Az & Iz). destruct (assigned_in m z f Az) as (d & Id). cbn in SU.
        destruct (copy_of (Assign v x e)) as [[y g]|] eqn:C; cbn in C; rewrite C in SU; injection SU as <-.
        -- destruct (copy_of_facts (Assign v x e) y g C) as (Ty & Ay & v0 & x0 & w & EQ). injection EQ as <- <- ->.
           destruct (assigned_in m y g Ay) as (d' & Id'). destruct (value_id d z f d' y g Id Id' E) as [-> _].
           destruct (S2 y) as [Q1 Q2]; [cbn; auto|]. cbn in Iz. destruct Iz as [->|Iz]; contradiction.
        -- destruct (value_id d z f v x e Id It E) as [-> _]. rewrite T in Tz. discriminate.
    + cbn. rewrite (IH (pre ++ [Expr e]) R S M' N); auto.
Qed.

Lemma filter_flat {X} (p : X -> bool) (f : X -> X) (g : X -> list X) l :
  (forall t, In t l -> filter p [f t] = g t) -> filter p (map f l) = flat_map g l.
Proof.
  induction l as [|t l IH]; intros H; auto. cbn [map flat_map]. rewrite <- (H t (or_introl eq_refl)), <- IH by (intros; apply H; right; auto).
  cbn. destruct (p (f t)); auto.
Qed.
Lemma erase_first : erase_statements (map substituted m) {| inline_expressions := []; inlined_expressions := []; superfluous_statements := temporary_targets m |} =
  (inlined m, opt_initial).
Proof.
  unfold erase_statements. cbn [superfluous_statements inline_expressions inlined_expressions]. f_equal.
  - assert (H : forall t, In t m -> filter (fun t => negb (existsb (fun v => is_target v t) (temporary_targets m))) [substituted t] =
        match t with
        | Assign v x e => if temporary m x then [] else
            match e with Name _ y => if temporary m y then match assigned m y with Some e' => [Assign v x e'] | None => [t] end else [t] | _ => [t] end
        | _ => [t] end).
    { intros t It. assert (ST := proj1 (Forall_forall _ _) STR _ It). destruct t as [v x e|e|c a b|c a b]; try contradiction.
      - assert (V : forall e', existsb (fun w => is_target w (Assign v x e')) (temporary_targets m) = temporary m x).
        { intros e'. apply eq_true_iff_eq. rewrite existsb_exists. split.
          - intros (w & W & EQ). cbn in EQ. apply Nat.eqb_eq in EQ. subst w. unfold temporary_targets in W. apply in_flat_map in W as (t & J & W).
            destruct t as [w y f|f|c a b|c a b]; try (destruct W; fail). destruct (temporary m y) eqn:T; [|destruct W]. destruct W as [->|[]].
            destruct (target_name v x e y f It J) as [-> _]. auto.
          - intros T. exists v. split; [|cbn; apply Nat.eqb_refl]. unfold temporary_targets. apply in_flat_map. exists (Assign v x e). rewrite T. cbn. auto. }
        unfold substituted. destruct (copy_of (Assign v x e)) as [[y g]|] eqn:C; cbn [filter]; rewrite V; destruct (temporary m x); auto; cbn [negb].
        + destruct (copy_of_facts _ y g C) as (Ty & Ay & v0 & x0 & w & EQ). injection EQ as <- <- ->. rewrite Ty, Ay. auto.
        + destruct e as [w y|w c|w f args|w e' sel|w e' mm]; auto. cbn in C. destruct (temporary m y); auto. destruct (assigned m y); [discriminate|auto].
      - cbn. assert (X : existsb (fun _ : nat => false) (temporary_targets m) = false) by (induction (temporary_targets m); auto). rewrite X. auto. }
    unfold inlined. apply filter_flat. exact H.
  - unfold opt_initial. f_equal. assert (F : forall v, In v (temporary_targets m) -> existsb (is_target v) (map substituted m) = true).
    { intros v W. unfold temporary_targets in W. apply in_flat_map in W as (t & J & W). destruct t as [w y f|f|c a b|c a b]; try (destruct W; fail).
      destruct (temporary m y) eqn:T; [|destruct W]. destruct W as [->|[]]. apply existsb_exists. exists (substituted (Assign v y f)). split; [apply in_map; auto|].
      destruct (substituted_assign v y f) as (e' & SU). rewrite SU. cbn. apply Nat.eqb_refl. }
    clear -F. induction (temporary_targets m) as [|v l IH]; auto. cbn. rewrite F by (left; auto). cbn. apply IH. intros; apply F; right; auto.
Qed.

Lemma inlined_silent : Forall silent (inlined m).
Proof.
  apply Forall_forall. intros u U. unfold inlined in U. apply in_flat_map in U as (t & It & U). assert (ST := proj1 (Forall_forall _ _) STR _ It).
  destruct t as [v x e|e|c a b|c a b]; try contradiction.
  - destruct (temporary m x) eqn:T; [destruct U|]. destruct (copy_of (Assign v x e)) as [[y g]|] eqn:C.
    + destruct (copy_of_facts _ y g C) as (Ty & Ay & v0 & x0 & w & EQ). injection EQ as <- <- ->. rewrite Ty, Ay in U. destruct U as [<-|[]]. cbn. eapply quiet_temporary; eauto.
    + assert (u = Assign v x e) as ->.
      { destruct e as [w y|w c|w f args|w e' sel|w e' mm]; try (destruct U as [<-|[]]; auto; fail). cbn in C.
        destruct (temporary m y); [destruct (assigned m y); [discriminate|]|]; destruct U as [<-|[]]; auto. }
      cbn. eapply quiet_assign; eauto.
  - destruct U as [<-|[]]. cbn. apply quiet_expr_stmt; auto.
Qed.

Lemma optimized_step n : (forall l, Forall silent l -> optimize_rounds s (value_of m) n l = Some l) ->
  optimize_rounds s (value_of m) (S n) m = Some (inlined m).
Proof.
  intros H. cbn [optimize_rounds]. rewrite (first_using m (incl_refl m) opt_initial eq_refl). cbn [opt_initial inlined_expressions superfluous_statements app].
  rewrite (first_defining m [] (copies m) [] eq_refl copies_nodup).
  - cbn [app]. rewrite erase_first. cbn. destruct (map snd (copies m)); auto. apply H. apply inlined_silent.
  - intros y e. split.
    + intros I. apply in_copies in I as (t & It & C). destruct (copy_of_facts t y e C) as (Ty & Ay & _). split; auto. split; auto.
      unfold temporary in Ty. apply andb_true_iff in Ty as [Ty _]. apply existsb_exists in Ty as (z & Z & E). apply String.eqb_eq in E. subst; auto.
    + intros (Ty & Ay & _). destruct (proj1 (in_map_iff _ _ _) (copies_all y Ty)) as ([z f] & E & I). cbn in E. subst z.
      assert (I' := I). apply in_copies in I' as (t & It & C). destruct (copy_of_facts t y f C) as (_ & Ay' & _). congruence.
Qed.
Lemma optimized fuel : optimize_rounds s (value_of m) (S (S fuel)) m = Some (inlined m).
Proof. apply optimized_step. intros l. apply silent_rounds. Qed.
End Module.

(** ** Uses within expressions *)
Section Fails.
Variable m : list (stmt A).
Hypothesis STR : straight m.
Hypothesis SET : settled m.
Hypothesis NDN : NoDup (nodes m).
Variable s : ident.
Hypothesis IDS : identify_module m identify_initial = Some s.

Definition key v o := In v (map fst (inline_expressions o)).
Lemma register_key v w e o : key v o \/ v = w -> key v (register_expression_for_inlining w e o).
Proof.
  unfold key. cbn. intros H. destruct (Nat.eq_dec v w) as [->|N]; auto. right. destruct H as [H|H]; [|contradiction].
  apply in_map_iff in H as (p & P & I). apply in_map_iff. exists p. split; auto. apply filter_In. split; auto.
  destruct (Nat.eqb_spec (fst p) w); auto. subst. contradiction.
Qed.
Lemma name_key v w o o' : optimize_name s (value_of m) w o = Some o' -> key v o -> key v o'.
Proof.
  unfold optimize_name. destruct (definitions_of s w) as [|d [|? ?]]; try (intros [= ->]; auto; fail). destruct (uses_of s d) as [|u [|? ?]]; try (intros [= ->]; auto; fail).
  destruct (Nat.eqb u w); [|discriminate]. destruct (value_of m d); [|discriminate]. intros [= <-] K. apply register_key; auto.
Qed.
Lemma expr_key v e : forall o o', optimize_expr s (value_of m) e o = Some o' -> key v o -> key v o'.
Proof.
  induction e as [i y|i w|i f args IH|i e sel IHe IHs|i e mm IHe] using expr_induction; cbn; intros o o' E K.
  - eapply name_key; eauto.
  - injection E as <-. auto.
  - revert o E K. induction IH as [|a args Ha _ IH]; cbn; intros o E K; [injection E as <-; auto|].
    destruct (optimize_expr s (value_of m) a o) as [o1|] eqn:O; [|discriminate]. eauto.
  - destruct (optimize_expr s (value_of m) e o) as [o1|] eqn:O; [|discriminate]. eauto.
  - eauto.
Qed.
Lemma expr_adds_key v x e : In (v, x) (expr_uses e) -> In (v, x) (module_uses m) -> temporary m x = true ->
  forall o o', optimize_expr s (value_of m) e o = Some o' -> key v o'.
Proof.
  intros I U T. revert I. induction e as [i y|i w|i f args IH|i e sel IHe IHs|i e mm IHe] using expr_induction; cbn; intros I o o' E.
  - destruct I as [[= -> ->]|[]]. rewrite (visited_name m STR SET NDN s v x o IDS U), T in E.
    destruct (temporary_assigned m x T) as (d & e & _ & AS & _). rewrite AS in E. injection E as <-. apply register_key; auto.
  - destruct I.
  - revert o E I. induction IH as [|a args Ha _ IH]; cbn; intros o E I; [destruct I|].
    destruct (optimize_expr s (value_of m) a o) as [o1|] eqn:O; [|discriminate]. apply in_app_iff in I as [I|I].
    + assert (K := Ha I o o1 O). clear -E K. revert o1 E K. induction args as [|b args IH]; cbn; intros o1 E K; [injection E as <-; auto|].
      destruct (optimize_expr s (value_of m) b o1) as [o2|] eqn:O; [|discriminate]. eapply IH; eauto. eapply expr_key; eauto.
    + eapply IH; eauto.
  - destruct (optimize_expr s (value_of m) e o) as [o1|] eqn:O; [|discriminate]. apply in_app_iff in I as [I|I]; [eapply expr_key; eauto|eapply IHs; eauto].
  - eauto.
Qed.

Definition not_whole v (t : stmt A) : Prop := match t with Assign _ _ e => expr_id e <> v | Expr _ => True | _ => False end.
Lemma stmt_after v o1 t e : not_whole v t -> match t with Assign _ _ f => f = e | _ => False end -> key v o1 ->
  key v {| inline_expressions := filter (fun p => negb (Nat.eqb (fst p) (expr_id e))) (inline_expressions o1);
           inlined_expressions := inlined_expressions o1; superfluous_statements := superfluous_statements o1 |}.
Proof.
  destruct t as [w x f|f|c a b|c a b]; try contradiction. intros W -> K. unfold key in *. cbn. apply in_map_iff in K as (p & P & I). apply in_map_iff. exists p. split; auto.
  apply filter_In. split; auto. cbn in W. destruct (Nat.eqb_spec (fst p) (expr_id e)); auto. congruence.
Qed.
Lemma using_key v t o t' o' : not_whole v t -> using_stmt s (value_of m) t o = Some (t', o') ->
  (key v o \/ exists x, In (v, x) (stmt_uses t) /\ In (v, x) (module_uses m) /\ temporary m x = true) -> key v o'.
Proof.
  intros W E H. destruct t as [w x e|e|c a b|c a b]; try contradiction; cbn in E.
  - destruct (optimize_expr s (value_of m) e o) as [o1|] eqn:O; [|discriminate].
    assert (K : key v o1). { destruct H as [H|(y & H1 & H2 & H3)]; [eapply expr_key; eauto|eapply expr_adds_key; eauto]. }
    destruct (find_value (expr_id e) (inline_expressions o1)); injection E as <- <-; auto.
    apply (stmt_after v o1 (Assign w x e) e W eq_refl K).
  - destruct (optimize_expr s (value_of m) e o) as [o1|] eqn:O; [|discriminate]. injection E as <- <-.
    destruct H as [H|(y & H1 & H2 & H3)]; [eapply expr_key; eauto|eapply expr_adds_key; eauto].
Qed.
Lemma changes_key v l : Forall (not_whole v) l -> forall o l' o', changes (using_stmt s (value_of m)) l o = Some (l', o') ->
  (key v o \/ exists x, In (v, x) (module_uses l) /\ In (v, x) (module_uses m) /\ temporary m x = true) -> key v o'.
Proof.
  induction 1 as [|t l W _ IH]; intros o l' o' E H; cbn in E.
  - injection E as <- <-. destruct H as [H|(x & [] & _)]. auto.
  - destruct (using_stmt s (value_of m) t o) as [[t1 o1]|] eqn:U; [|discriminate]. destruct (changes _ l o1) as [[l2 o2]|] eqn:C; [|discriminate]. injection E as <- <-.
    apply (IH o1 l2 o2 C). destruct H as [H|(x & H1 & H2 & H3)]; [left; eapply using_key; eauto|]. cbn in H1. apply in_app_iff in H1 as [H1|H1].
    + left. eapply using_key; eauto.
    + right. eauto.
Qed.
Lemma defining_inline l : forall o l' o', straight l -> changes defining_stmt l o = Some (l', o') -> inline_expressions o' = inline_expressions o.
Proof.
  induction l as [|t l IH]; intros o l' o' S E; cbn in E; [injection E as <- <-; auto|]. inversion S as [|? ? St F]; subst.
  destruct t as [w x e|e|c a b|c a b]; try contradiction; cbn in E.
  - destruct (remove_expression _ _); destruct (changes defining_stmt l _) as [[l2 o2]|] eqn:C; try discriminate; injection E as <- <-; apply IH in C; auto.
  - destruct (changes defining_stmt l _) as [[l2 o2]|] eqn:C; try discriminate; injection E as <- <-; apply IH in C; auto.
Qed.
Lemma using_straight l : forall o l' o', straight l -> changes (using_stmt s (value_of m)) l o = Some (l', o') -> straight l'.
Proof.
  induction l as [|t l IH]; intros o l' o' S E; cbn in E; [injection E as <- <-; auto|]. inversion S as [|? ? St F]; subst.
  destruct (using_stmt s (value_of m) t o) as [[t1 o1]|] eqn:U; [|discriminate]. destruct (changes _ l o1) as [[l2 o2]|] eqn:C; [|discriminate]. injection E as <- <-.
  constructor; [|eapply IH; eauto]. destruct t as [w x e|e|c a b|c a b]; try contradiction; cbn in U.
  - destruct (optimize_expr s (value_of m) e o) as [o3|]; [|discriminate]. destruct (find_value _ _); injection U as <- <-; auto.
  - destruct (optimize_expr s (value_of m) e o) as [o3|]; [|discriminate]. injection U as <- <-; auto.
Qed.

(** A name within an expression has another number than all expressions that are assigned. *)
Lemma nested_apart v y e : In (v, y) (expr_uses e) -> (forall i z, e <> Name i z) -> NoDup (expr_nodes e) -> v <> expr_id e.
Proof.
  intros I W N. destruct e as [i z|i c|i f args|i e sel|i e mm]; cbn in *.
  - exfalso. eapply W; eauto.
  - destruct I.
  - apply nodup_apart in N as (_ & _ & N). intros ->. apply (N i); [|cbn; auto]. apply in_flat_map in I as (a & I1 & I2). apply in_flat_map. exists a. split; auto. eapply expr_uses_nodes; eauto.
  - rewrite app_assoc in N. apply nodup_apart in N as (_ & _ & N). intros ->. apply (N i); [|cbn; auto]. apply in_app_iff. apply in_app_iff in I as [I|I]; apply expr_uses_nodes in I; auto.
  - apply nodup_apart in N as (_ & _ & N). intros ->. apply (N i); [|cbn; auto]. eapply expr_uses_nodes; eauto.
Qed.
Lemma fails fuel t y e :
  In t m -> (t = Expr e \/ exists v x, t = Assign v x e /\ forall i z, e <> Name i z) -> In y (expr_names e) -> temporary m y = true ->
  optimize_rounds s (value_of m) fuel m = None.
Proof.
  intros It TE Y T. destruct fuel as [|fuel]; cbn [optimize_rounds]; auto.
  rewrite <- expr_uses_names in Y. apply in_map_iff in Y as ([v y'] & EY & U). cbn in EY. subst y'.
  assert (UM : In (v, y) (module_uses m)). { apply in_flat_map. exists t. split; auto. destruct TE as [->|(w & x & -> & _)]; auto. }
  assert (W : Forall (not_whole v) m).
  { clear fuel SET IDS UM T. unfold nodes in NDN. induction m as [|u l IH]; constructor.
    - clear IH. inversion STR as [|? ? St F]; subst. cbn in NDN. apply nodup_apart in NDN as (N1 & N2 & N3).
      destruct u as [w x f|f|c a b|c a b]; cbn; auto. destruct It as [<-|It].
      + destruct TE as [TE|(w' & x' & TE & NE)]; [discriminate|]. injection TE as -> -> ->. cbn in N1. apply nodup_apart in N1 as (N1 & _).
        intros EQ. apply (nested_apart v y e U NE N1). auto.
      + intros EQ. apply (N3 v).
        * cbn. apply in_app_iff. left. rewrite <- EQ. apply expr_id_nodes.
        * apply in_flat_map. exists t. split; auto. apply expr_uses_nodes in U. destruct TE as [->|(w' & x' & -> & _)]; cbn; rewrite ?in_app_iff; auto.
    - inversion STR as [|? ? St F]; subst. cbn in NDN. apply nodup_apart in NDN as (N1 & N2 & N3). destruct It as [->|It]; [|apply IH; auto].
      clear IH. apply Forall_forall. intros u J. assert (Su := proj1 (Forall_forall _ _) F _ J). destruct u as [w x f|f|c a b|c a b]; cbn; auto. intros EQ. apply (N3 v).
      + apply expr_uses_nodes in U. destruct TE as [->|(w' & x' & -> & _)]; cbn; rewrite ?in_app_iff; auto.
      + apply in_flat_map. exists (Assign w x f). split; auto. cbn. apply in_app_iff. left. rewrite <- EQ. apply expr_id_nodes. }
  destruct (changes (using_stmt s (value_of m)) m opt_initial) as [[m1 o1]|] eqn:C; auto.
  destruct (changes defining_stmt m1 o1) as [[m2 o2]|] eqn:D; auto. cbn.
  assert (K : key v o1) by (eapply changes_key; eauto). apply defining_inline in D; [|eapply using_straight; eauto].
  unfold key in K. rewrite <- D in K. destruct (inline_expressions o2); [destruct K|auto].
Qed.
End Fails.

(** ** What is computed *)
Section Preserves.
Variable m : list (stmt A).
Hypothesis SET : settled m.
Hypothesis OC : only_copied m.
Variable ops : string -> option (op A).
Variable ins : @env A.

Lemma values_ext (n n' : @env A) e : (forall x, In x (expr_names e) -> n x = n' x) -> values ops n e = values ops n' e.
Proof.
  induction e as [i y|i w|i f args IH|i e sel IHe IHs|i e mm IHe] using expr_induction; cbn; intros H; auto.
  - rewrite H; auto.
  - assert (map (values ops n) args = map (values ops n') args) as ->; auto. induction IH as [|a args Ha _ IH]; cbn; auto. cbn in H. rewrite Ha, IH; auto; intros x X; apply H, in_app_iff; auto.
Qed.

Lemma settled_once (l pre : list (stmt A)) x : settled (pre ++ l) -> In x (names_assigned pre) -> ~ In x (names_assigned l).
Proof.
  induction pre as [|[v y e|e|c a b|c a b] pre IH]; cbn; try tauto. intros (S1 & _ & S3) [->|I]; auto.
  intros J. apply S1. unfold names_assigned. rewrite flat_map_app. apply in_app_iff. auto.
Qed.
Lemma settled_value (l pre : list (stmt A)) x e : settled (pre ++ l) -> In x (names_assigned pre) -> assigned (pre ++ l) x = Some e ->
  forall z, In z (expr_names e) -> ~ In z (names_assigned l).
Proof.
  induction pre as [|[v y f|f|c a b|c a b] pre IH]; cbn; try tauto.
  intros (S1 & S2 & S3) I AS z Z. destruct (String.eqb_spec y x) as [->|N].
  - injection AS as ->. destruct (S2 z Z) as [_ S4]. intros J. apply S4. unfold names_assigned. rewrite flat_map_app. apply in_app_iff. auto.
  - destruct I as [->|I]; [contradiction|]. eapply IH; eauto.
Qed.
Lemma assigned_here (l pre : list (stmt A)) x e v : settled (pre ++ Assign v x e :: l) -> assigned (pre ++ Assign v x e :: l) x = Some e.
Proof.
  induction pre as [|[w y f|f|c a b|c a b] pre IH]; cbn; try tauto.
  - rewrite String.eqb_refl. auto.
  - intros (S1 & _ & S3). destruct (String.eqb_spec y x) as [->|N]; auto. exfalso. apply S1. unfold names_assigned. rewrite flat_map_app. apply in_app_iff. right. cbn. auto.
Qed.
Definition inline_stmt (t : stmt A) : list (stmt A) :=
  match t with
  | Assign v x e =>
      if temporary m x then []
      else
        match e with
        | Name _ y => if temporary m y then match assigned m y with Some e' => [Assign v x e'] | None => [t] end else [t]
        | _ => [t]
        end
  | _ => [t]
  end.
Lemma inline_no_copy v x e : temporary m x = false -> copy_of m (Assign v x e) = None -> inline_stmt (Assign v x e) = [Assign v x e].
Proof.
  intros T C. cbn. rewrite T. destruct e as [w y|w c|w f args|w e' sel|w e' mm]; auto. cbn in C. destruct (temporary m y); auto. destruct (assigned m y); [discriminate|auto].
Qed.

Lemma preserves l : forall pre bd bd' b rs ts, m = pre ++ l -> 
  (forall y e, temporary m y = true -> In y (names_assigned pre) -> assigned m y = Some e ->
     exists v, bd y = Some v /\ values ops (known bd ins) e = Some [v]) ->
  (forall x, temporary m x = false -> bd' x = bd x) ->
  meaning ops ins bd l = Some (b, rs, ts) ->
  exists b', meaning ops ins bd' (flat_map inline_stmt l) =
    Some (b', rs, filter (fun p => negb (temporary m (snd (fst p)))) ts) /\ forall x, temporary m x = false -> b' x = b x.
Proof.
  induction l as [|t l IH]; intros pre bd bd' b rs ts M F AG E.
  - cbn in E. injection E as <- <- <-. cbn. eauto.
  - assert (It : In t m) by (rewrite M; apply in_app_iff; right; left; auto). assert (M' : m = (pre ++ [t]) ++ l) by (rewrite <- app_assoc; auto).
    assert (SS : settled (t :: l)) by (apply (settled_suffix pre); rewrite <- M; auto).
    assert (QV : forall e, (forall y, In y (expr_names e) -> temporary m y = false) -> values ops (known bd' ins) e = values ops (known bd ins) e).
    { intros e Q. apply values_ext. intros x X. unfold known. rewrite AG; auto. }
    assert (QN : forall e, quiet m e -> forall y, In y (expr_names e) -> temporary m y = false).
    { intros e Q y Y. rewrite <- expr_uses_names in Y. apply in_map_iff in Y as ([v y'] & EY & U). cbn in EY. subst y'. apply (Q v y U). }
    destruct t as [v x e|e|c a b0|c a b0]; try discriminate; cbn [meaning] in E.
    + destruct (values ops (known bd ins) e) as [[|u [|? ?]]|] eqn:V; try discriminate.
      destruct (meaning ops ins (bind_name x u bd) l) as [[[b1 rs1] ts1]|] eqn:ME; [|discriminate]. injection E as <- <- <-.
      assert (NX : ~ In x (names_assigned pre)). { intros K. apply (settled_once (Assign v x e :: l) pre x); auto; [rewrite <- M; auto|]. cbn. auto. }
      assert (F' : forall y f, temporary m y = true -> In y (names_assigned (pre ++ [Assign v x e])) -> assigned m y = Some f ->
        exists w, bind_name x u bd y = Some w /\ values ops (known (bind_name x u bd) ins) f = Some [w]).
      { intros y f T I AS. unfold names_assigned in I. rewrite flat_map_app in I. fold (names_assigned pre) in I. cbn in I. apply in_app_iff in I as [I|[->|[]]].
        - destruct (F y f T I AS) as (w & W1 & W2). exists w. split.
          + unfold bind_name. destruct (String.eqb_spec y x) as [->|]; [contradiction|auto].
          + rewrite <- W2. apply values_ext. intros z Z. unfold known, bind_name. destruct (String.eqb_spec z x) as [->|]; auto.
            exfalso. apply (settled_value (Assign v x e :: l) pre y f) with (z := x); auto; [rewrite <- M; auto|rewrite <- M; auto|cbn; auto].
        - exists u. unfold bind_name at 1. rewrite String.eqb_refl. split; auto.
          assert (f = e) as ->. { assert (H := assigned_here l pre y e v). rewrite <- M in H. rewrite H in AS by auto. injection AS; auto. }
          rewrite <- V. apply values_ext. intros z Z. unfold known, bind_name. destruct (String.eqb_spec z y) as [->|]; auto.
          exfalso. cbn in SS. destruct SS as (_ & S2 & _). destruct (S2 y Z). contradiction. }
      cbn [flat_map filter fst snd]. destruct (temporary m x) eqn:T.
      * replace (inline_stmt (Assign v x e)) with (@nil (stmt A)) by (cbn; rewrite T; auto). cbn [negb app].
        apply (IH (pre ++ [Assign v x e]) (bind_name x u bd) bd' b1 rs1 ts1 M' F'); auto.
        intros z Z. rewrite AG by auto. unfold bind_name. destruct (String.eqb_spec z x) as [->|]; auto. rewrite T in Z. discriminate.
      * assert (AG' : forall z, temporary m z = false -> bind_name x u bd' z = bind_name x u bd z).
        { intros z Z. unfold bind_name. destruct (String.eqb z x); auto. }
        destruct (IH (pre ++ [Assign v x e]) (bind_name x u bd) (bind_name x u bd') b1 rs1 ts1 M' F' AG' ME) as (b' & E' & B'). exists b'. split; auto. cbn [negb].
        destruct (copy_of m (Assign v x e)) as [[y g]|] eqn:C.
        -- destruct (copy_of_facts m _ y g C) as (Ty & Ay & v0 & x0 & w & EQ). injection EQ as <- <- ->.
           replace (inline_stmt (Assign v x (Name w y))) with [Assign v x g] by (cbn; rewrite T, Ty, Ay; auto). cbn [app meaning].
           assert (Iy : In y (names_assigned pre)).
           { unfold temporary in Ty. apply andb_true_iff in Ty as [Ty _]. apply existsb_exists in Ty as (z & Z & EZ). apply String.eqb_eq in EZ. subst z.
             rewrite M in Z. unfold names_assigned in Z. rewrite flat_map_app in Z. apply in_app_iff in Z as [Z|Z]; auto. exfalso.
             cbn in SS. destruct SS as (_ & S2 & _). destruct (S2 y (or_introl eq_refl)) as [Q1 Q2]. cbn in Z. destruct Z as [->|Z]; contradiction. }
           destruct (F y g Ty Iy Ay) as (u' & U1 & U2). cbn in V. unfold known at 1 in V. rewrite U1 in V. injection V as ->.
           rewrite QV, U2 by (apply QN; eapply quiet_temporary; eauto). rewrite E'. auto.
        -- rewrite inline_no_copy by auto. cbn [app meaning]. rewrite QV, V by (apply QN; eapply quiet_assign; eauto). rewrite E'. auto.
    + destruct (values ops (known bd ins) e) as [vs|] eqn:V; try discriminate.
      destruct (meaning ops ins bd l) as [[[b1 rs1] ts1]|] eqn:ME; [|discriminate]. injection E as <- <- <-.
      assert (F' : forall y f, temporary m y = true -> In y (names_assigned (pre ++ [Expr e])) -> assigned m y = Some f ->
        exists w, bd y = Some w /\ values ops (known bd ins) f = Some [w]).
      { intros y f T I. apply F; auto. unfold names_assigned in I. rewrite flat_map_app in I. cbn in I. rewrite app_nil_r in I. auto. }
      destruct (IH (pre ++ [Expr e]) bd bd' b1 rs1 ts1 M' F' AG ME) as (b' & E' & B'). exists b'. split; auto. cbn [flat_map inline_stmt app meaning].
      rewrite QV, V by (apply QN; eapply quiet_expr_stmt; eauto). rewrite E'. auto.
Qed.
End Preserves.
End Proofs.
