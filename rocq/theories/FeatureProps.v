(** * Features: what is found at paths, and what adding to a feature does *)
From Coq Require Import String Ascii List Bool Arith Lia.
From Verif Require Import StringModel StringSpec StringProofs FeatureModel FeatureSpec FeatureProofs.
Import ListNotations.

(** ** Finding features *)

(** A path leads to the feature one gets to by its names, whatever the number of slashes
    before, between and behind them. *)
Theorem C70_feature {A : Type} (h : heap A) f path g : proper h ->
  feature h f path = Some g <->
  exists ns, ns <> [] /\ separated (fun c => c = "/"%char) path ns /\ leads h f ns g.
Proof.
  intros P. unfold feature.
  assert (S : separated (fun c => c = "/"%char) path (names path)).
  { apply (separated_iff (separators slash)); [apply slash_separators|]. apply split_spec. auto. }
  assert (U : forall ns, separated (fun c => c = "/"%char) path ns -> names path = ns).
  { intros ns H. unfold names. apply split_spec.
    apply (separated_iff (fun c => c = "/"%char)); auto. intros c. rewrite slash_separators. tauto. }
  split.
  - intros H. assert (N : names path <> []) by (intros N; rewrite N in H; discriminate).
    exists (names path). repeat split; auto. apply feature_at_leads; auto.
  - intros (ns & N & S2 & L). rewrite (U ns S2). apply feature_at_leads; auto.
Qed.
Print Assumptions C70_feature.

Theorem C70_contains_feature {A : Type} (h : heap A) f ns path : proper h ->
  Forall name ns -> ns <> [] -> path = relative ns \/ path = absolute ns ->
  contains_feature h f path = true <-> exists g, leads h f ns g.
Proof.
  intros P F N T. rewrite (contains_spec' h f ns path P F N T).
  destruct (feature_at h f ns) as [g|] eqn:E.
  - apply feature_at_leads in E; auto. split; eauto.
  - split; [discriminate|]. intros [g L]. apply feature_at_leads in L; auto. congruence.
Qed.
Print Assumptions C70_contains_feature.

(** ** Finding attributes *)

(** The attribute of a feature at a path is found; that it is not there is reported by an
    exception if the feature is. *)
Theorem C70_attribute {A : Type} debug (h : heap A) f init n path : proper h ->
  Forall name init -> name n -> written (init ++ [n]) path ->
  (forall g a, leads h f init g -> has h g n a -> attribute debug h f path = Done a) /\
  (forall g, leads h f init g -> (forall a, ~ has h g n a) ->
     attribute debug h f path = Out_of_range) /\
  ((forall g, ~ leads h f init g) -> attribute debug h f path = fatal debug).
Proof. apply attribute_spec. Qed.
Print Assumptions C70_attribute.

(** Whether a feature has an attribute of a name. *)
Theorem C70_contains_attribute {A : Type} debug (h : heap A) f n : proper h -> name n ->
  exists b, contains_attribute debug h f n = Done b /\ (b = true <-> exists a, has h f n a).
Proof.
  intros P N. destruct (contains_attribute_top debug h f n P N) as [H1 H2].
  destruct (decide_has h f n P) as [[a Ha]|Ha].
  - exists true. split; eauto. split; eauto.
  - exists false. split; auto. split; [discriminate|]. intros [a H]. destruct (Ha a H).
Qed.
Print Assumptions C70_contains_attribute.

(** For the attributes of its child-features the answer is never no. *)
Theorem C70_contains_attribute_refuted {A : Type} debug (h : heap A) f init n path : proper h ->
  Forall name init -> name n -> init <> [] -> written (init ++ [n]) path ->
  contains_attribute debug h f path <> Done false /\
  (contains_attribute debug h f path = Done true <->
     exists g a, leads h f init g /\ has h g n a) /\
  (contains_attribute debug h f path = Out_of_range <->
     exists g, leads h f init g /\ forall a, ~ has h g n a) /\
  (contains_attribute debug h f path = fatal debug <-> forall g, ~ leads h f init g).
Proof.
  intros P F Nn Ni W. rewrite (contains_attribute_nested debug h f init n path P F Ni Nn W).
  destruct (attribute_spec debug h f init n path P F Nn W) as (H1 & H2 & H3).
  destruct (decide_leads h f init P) as [[g L]|L].
  - assert (U := fun g' => leads_fun h P _ _ _ L g').
    destruct (decide_has h g n P) as [[a Ha]|Ha].
    + rewrite (H1 g a L Ha). cbn. repeat split; try discriminate; eauto.
      * intros (g' & L' & H). destruct (H a). rewrite <- (U g' L'). auto.
      * destruct debug; discriminate.
      * intros H. destruct (H g L).
    + rewrite (H2 g L Ha). cbn. repeat split; try discriminate; eauto.
      * intros (g' & a & L' & H). destruct (Ha a). rewrite (U g' L'). auto.
      * destruct debug; discriminate.
      * intros H. destruct (H g L).
  - rewrite (H3 L). cbn. repeat split; auto; try (destruct debug; discriminate).
    + intros (g' & a & L' & H). destruct (L g' L').
    + intros (g' & L' & H). destruct (L g' L').
    + destruct debug; reflexivity.
Qed.
Print Assumptions C70_contains_attribute_refuted.

(** ** Adding *)

(** An attribute is added to the feature its path leads to, and nothing else is changed. *)
Theorem C70_add_attribute {A : Type} debug (h : heap A) f init n path a : proper h ->
  Forall name init -> name n -> written (init ++ [n]) path ->
  ((forall g, ~ leads h f init g) -> add_attribute debug h f path a = fatal debug) /\
  (forall g, leads h f init g -> (forall b, ~ has h g n b) ->
     (debug = true -> forall x, ~ child h g n x) ->
     exists new, add_attribute debug h f path a = Done new /\ attribute_added h new g n a) /\
  (forall g, leads h f init g -> (exists b, has h g n b) \/ (exists x, child h g n x) ->
     debug = true -> add_attribute debug h f path a = Aborted) /\
  (forall g, leads h f init g -> (exists b, has h g n b) -> debug = false ->
     exists new, add_attribute debug h f path a = Done new /\ unchanged h new).
Proof.
  intros P F Nn W. destruct (parent_spec debug h f init n path P F Nn W) as [H1 H2].
  assert (T := written_cases init n path W). unfold add_attribute.
  rewrite (filename_written init n path Nn W). repeat split.
  - intros L. rewrite (H2 L), (contains_no_parent h f init n path P F Nn T L). destruct debug; auto.
  - intros g L Ha Hc. rewrite (H1 g L). destruct (P g) as [P1 P2].
    destruct (insert_cases n a _ P2) as [_ I]. destruct (I Ha) as [r Ir].
    exists (set h g (Node (features (h g)) r)). split; [|apply attribute_inserted; auto].
    destruct debug; cbn [assert bind pointed].
    + destruct (contains_child h f init n path g P F Nn T L) as [_ C].
      rewrite (C (Hc eq_refl)). cbn. rewrite Ir. auto.
    + rewrite Ir. auto.
  - intros g L H ->. destruct (contains_child h f init n path g P F Nn T L) as [C1 C2].
    destruct (decide_child h g n P) as [[x Hx]|Hx].
    + rewrite (C1 x Hx). auto.
    + rewrite (C2 Hx), (H1 g L). destruct H as [[b Hb]|[x Hx']]; [|destruct (Hx x Hx')].
      destruct (P g) as [P1 P2]. destruct (insert_cases n a _ P2) as [I _].
      cbn. rewrite (I (ex_intro _ b Hb)). auto.
  - intros g L [b Hb] ->. rewrite (H1 g L). destruct (P g) as [P1 P2].
    destruct (insert_cases n a _ P2) as [I _]. cbn. rewrite (I (ex_intro _ b Hb)).
    eexists. split; [reflexivity|]. apply set_unchanged.
Qed.
Print Assumptions C70_add_attribute.

(** So is a child-feature, if assertions are not checked or it is added to the feature itself. *)
Theorem C70_add_feature {A : Type} debug (h : heap A) f init n path new : proper h ->
  Forall name init -> name n -> written (init ++ [n]) path -> debug = false \/ init = [] ->
  ((forall g, ~ leads h f init g) -> add_feature debug h f path new = fatal debug) /\
  (forall g, leads h f init g -> (forall x, ~ child h g n x) ->
     (debug = true -> forall b, ~ has h g n b) ->
     exists h', add_feature debug h f path new = Done h' /\ child_added h h' g n new) /\
  (forall g, leads h f init g -> (exists b, has h g n b) \/ (exists x, child h g n x) ->
     debug = true -> add_feature debug h f path new = Aborted) /\
  (forall g, leads h f init g -> (exists x, child h g n x) -> debug = false ->
     exists h', add_feature debug h f path new = Done h' /\ unchanged h h').
Proof.
  intros P F Nn W D. destruct (parent_spec debug h f init n path P F Nn W) as [H1 H2].
  unfold add_feature. rewrite (filename_written init n path Nn W).
  assert (Top : debug = true -> init = [] /\ path = n).
  { intros ->. destruct D as [D| ->]; [discriminate|]. split; auto.
    inversion W as [ns E|ns Hl E]; subst; auto. cbn in Hl. lia. }
  repeat split.
  - intros L. destruct debug.
    + destruct (Top eq_refl) as [-> _]. destruct (L f). constructor.
    + rewrite (H2 L). auto.
  - intros g L Hc Ha. rewrite (H1 g L). destruct (P g) as [P1 P2].
    destruct (insert_cases n new _ P1) as [_ I]. destruct (I Hc) as [r Ir].
    exists (set h g (Node r (attributes (h g)))). split; [|apply child_inserted; auto].
    destruct debug; cbn [assert bind pointed].
    + destruct (Top eq_refl) as [-> ->]. inversion L; subst.
      destruct (contains_attribute_top true h g n P Nn) as [_ C]. rewrite (C (Ha eq_refl)).
      cbn. rewrite Ir. auto.
    + rewrite Ir. auto.
  - intros g L H E. subst debug. destruct (Top eq_refl) as [-> ->]. inversion L; subst.
    destruct (contains_attribute_top true h g n P Nn) as [C1 C2].
    destruct (decide_has h g n P) as [[b Hb]|Hb].
    + rewrite (C1 b Hb). auto.
    + rewrite (C2 Hb), (H1 g L). destruct H as [[b Hb']|[x Hx]]; [destruct (Hb b Hb')|].
      destruct (P g) as [P1 P2]. destruct (insert_cases n new _ P1) as [I _].
      cbn. rewrite (I (ex_intro _ x Hx)). auto.
  - intros g L [x Hx] ->. rewrite (H1 g L). destruct (P g) as [P1 P2].
    destruct (insert_cases n new _ P1) as [I _]. cbn. rewrite (I (ex_intro _ x Hx)).
    eexists. split; [reflexivity|]. apply set_unchanged.
Qed.
Print Assumptions C70_add_feature.

(** With assertions a child-feature cannot be added to a child-feature by its path. *)
Theorem C70_add_feature_refuted {A : Type} (h : heap A) f init n path new : proper h ->
  Forall name init -> name n -> init <> [] -> written (init ++ [n]) path ->
  (add_feature true h f path new = Out_of_range <->
     exists g, leads h f init g /\ forall a, ~ has h g n a) /\
  (add_feature true h f path new = Aborted <->
     (forall g, ~ leads h f init g) \/ exists g a, leads h f init g /\ has h g n a).
Proof.
  intros P F Nn Ni W. unfold add_feature.
  rewrite (contains_attribute_nested true h f init n path P F Ni Nn W).
  destruct (attribute_spec true h f init n path P F Nn W) as (H1 & H2 & H3).
  destruct (decide_leads h f init P) as [[g L]|L].
  - assert (U := fun g' => leads_fun h P _ _ _ L g').
    destruct (decide_has h g n P) as [[a Ha]|Ha].
    + rewrite (H1 g a L Ha). cbn. repeat split; try discriminate; eauto.
      intros (g' & L' & H). destruct (H a). rewrite <- (U g' L'). auto.
    + rewrite (H2 g L Ha). cbn. repeat split; try discriminate; eauto.
      intros [H|(g' & a & L' & H)]; [destruct (H g L)|]. destruct (Ha a). rewrite (U g' L'). auto.
  - rewrite (H3 L). cbn. repeat split; auto; try discriminate.
    intros (g' & L' & H). destruct (L g' L').
Qed.
Print Assumptions C70_add_feature_refuted.

(** The path of a single name may not start with a slash: such a path leads to the
    child-feature, but nothing can be added at it and it has no attributes. *)
Theorem C70_root {A : Type} debug (h : heap A) f n a new : proper h -> name n ->
  (contains_feature h f (absolute [n]) = true <-> exists g, child h f n g) /\
  attribute debug h f (absolute [n]) = fatal debug /\
  contains_attribute debug h f (absolute [n]) = fatal debug /\
  nr_attributes_at debug h f (absolute [n]) = fatal debug /\
  add_attribute debug h f (absolute [n]) a = fatal debug /\
  add_feature debug h f (absolute [n]) new = fatal debug.
Proof.
  intros P N.
  assert (At : attribute debug h f (absolute [n]) = fatal debug).
  { unfold attribute. rewrite parent_root_spec by auto. destruct debug; auto. }
  assert (Ca : contains_attribute debug h f (absolute [n]) = fatal debug).
  { unfold contains_attribute. rewrite parent_root by auto. cbn [slash lit list_ascii_of_string].
    rewrite At. destruct debug; auto. }
  assert (Cf := C70_contains_feature h f [n] (absolute [n]) P (Forall_cons _ N (Forall_nil _))
    ltac:(discriminate) (or_intror eq_refl)).
  split; [rewrite Cf; split|repeat split; auto].
  - intros [g L]. inversion L as [|? ? x ? ? C L2]; subst. inversion L2; subst. eauto.
  - intros [g C]. exists g. econstructor; eauto. constructor.
  - unfold nr_attributes_at. rewrite parent_root_spec by auto. destruct debug; auto.
  - unfold add_attribute. rewrite parent_root_spec by auto. 
    destruct debug, (contains_feature h f (absolute [n])); auto.
  - unfold add_feature. rewrite Ca, parent_root_spec by auto. destruct debug; auto.
Qed.
Print Assumptions C70_root.

(** ** Numbers and names *)

Theorem C70_names {A : Type} (h : heap A) f : proper h ->
  ordered (feature_names h f) /\ (forall n, In n (feature_names h f) <-> exists g, child h f n g) /\
  ordered (attribute_names h f) /\ (forall n, In n (attribute_names h f) <-> exists a, has h f n a) /\
  nr_features h f = length (feature_names h f) /\ nr_attributes h f = length (attribute_names h f).
Proof.
  intros P. destruct (P f) as [P1 P2].
  assert (M : forall (V : Type) (m : list (text * V)) n, In n (map fst m) <-> exists v, In (n, v) m).
  { intros V m n. rewrite in_map_iff. split.
    - intros [[k v] [E H]]. cbn in E. subst. eauto.
    - intros [v H]. exists (n, v). auto. }
  unfold feature_names, attribute_names, nr_features, nr_attributes. rewrite !map_length.
  split; [auto|]. split; [intros n; apply M|]. split; [auto|]. split; [intros n; apply M|]. auto.
Qed.
Print Assumptions C70_names.

(** The number of features at a path is that of the feature it leads to, but the number of
    attributes is that of the feature one name before. *)
Theorem C70_numbers {A : Type} debug (h : heap A) f init n path : proper h ->
  Forall name init -> name n -> written (init ++ [n]) path ->
  (forall g, leads h f (init ++ [n]) g ->
     nr_features_at debug h f path = Done (length (feature_names h g))) /\
  ((forall g, ~ leads h f (init ++ [n]) g) -> nr_features_at debug h f path = fatal debug) /\
  (forall g, leads h f init g ->
     nr_attributes_at debug h f path = Done (length (attribute_names h g))) /\
  ((forall g, ~ leads h f init g) -> nr_attributes_at debug h f path = fatal debug).
Proof.
  intros P F Nn W. destruct (parent_spec debug h f init n path P F Nn W) as [H1 H2].
  assert (T := written_cases init n path W).
  assert (Fa : Forall name (init ++ [n])) by (apply Forall_app; auto).
  assert (Na : init ++ [n] <> []) by (destruct init; discriminate).
  assert (Nm : names path = init ++ [n]).
  { destruct T as [-> | ->]; [apply names_relative|apply names_absolute]; auto. }
  unfold nr_features_at, nr_attributes_at, feature, feature_names, attribute_names. rewrite Nm.
  rewrite (contains_spec' h f _ path P Fa Na T). repeat split.
  - intros g L. apply feature_at_leads in L; auto. rewrite L, map_length. destruct debug; auto.
  - intros L. apply feature_at_none in L; auto. rewrite L. destruct debug; auto.
  - intros g L. rewrite (H1 g L), map_length. auto.
  - intros L. rewrite (H2 L). destruct debug; auto.
Qed.
Print Assumptions C70_numbers.

(** ** The example of the tests: the earth, its acceleration and its continents *)
Definition earth : addr := 0.
Definition continents : addr := 1.
Definition void : heap nat := fun _ => FeatureModel.empty.
Definition world (debug : bool) : outcome (heap nat) :=
  bind (add_attribute debug void earth (lit "acceleration") 9) (fun h =>
  bind (add_feature debug h earth (lit "continents") continents) (fun h =>
  add_attribute debug h earth (lit "/continents/is_land") 1)).

Example void_proper : proper void.
Proof. intros f. split; constructor. Qed.

Example earth_example debug : exists h, world debug = Done h /\
  feature h earth (lit "continents") = Some continents /\
  attribute debug h earth (lit "continents/is_land") = Done 1 /\
  contains_attribute debug h earth (lit "continents/is_land") = Done true /\
  attribute_names h earth = [lit "acceleration"] /\
  nr_features_at debug h earth (lit "continents") = Done 0 /\
  nr_attributes_at debug h earth (lit "continents") = Done 1.
Proof. destruct debug; eexists; repeat split; reflexivity. Qed.

(** The number of attributes the tests expect of the continents is the one of the earth, which
    shows if the earth has another attribute. *)
Theorem C70_numbers_refuted debug : exists h : heap nat, world debug = Done h /\
  exists h', add_attribute debug h earth (lit "radius") 64 = Done h' /\
  leads h' earth [lit "continents"] continents /\
  attribute_names h' continents = [lit "is_land"] /\
  nr_attributes_at debug h' earth (lit "continents") = Done 2.
Proof.
  destruct debug; eexists; (split; [reflexivity|]); eexists; (split; [reflexivity|]);
  (split; [apply (L_child _ _ _ continents); [left; reflexivity|constructor]|]); split; reflexivity.
Qed.
Print Assumptions C70_numbers_refuted.

(** The europe of the continents: absent attributes and nested features. *)
Example nested_example debug : exists h, world debug = Done h /\
  contains_attribute debug h earth (lit "continents/is_water") = Out_of_range /\
  contains_attribute debug h earth (lit "oceans/is_water") = fatal debug /\
  (if debug then add_feature debug h earth (lit "continents/europe") 2 = Out_of_range
   else exists h', add_feature debug h earth (lit "continents/europe") 2 = Done h' /\
          feature h' earth (lit "/continents//europe/") = Some 2) /\
  add_attribute debug h earth (lit "/radius") 64 = fatal debug.
Proof.
  destruct debug; eexists; repeat split; try reflexivity. eexists. split; reflexivity.
Qed.

Example names_example : name (lit "continents") /\ name (lit "is_land") /\
  written ([lit "continents"] ++ [lit "is_land"]) (lit "/continents/is_land").
Proof.
  repeat split; try discriminate; try (cbn; intros H; repeat destruct H as [H|H]; discriminate || auto).
  apply (W_absolute [lit "continents"; lit "is_land"]). cbn. auto.
Qed.
