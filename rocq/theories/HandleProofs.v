(** * Proofs about handles *)
From Coq Require Import ZArith List Bool Arith Permutation Lia.
From Verif Require Import HandleModel HandleSpec.
Import ListNotations.
Open Scope Z_scope.

(** ** Handles by name *)
Lemma get_in l h id : get l h = Some id -> In (h, id) l.
Proof.
  unfold get. destruct (find _ l) as [[n z]|] eqn:F; [|discriminate]. intros [= <-].
  apply find_some in F as [I E]. cbn in E. apply Nat.eqb_eq in E. subst. exact I.
Qed.
Lemma get_alive l h : In h (map fst l) -> exists id, get l h = Some id.
Proof.
  intros H. unfold get. destruct (find (fun e => Nat.eqb (fst e) h) l) as [[n z]|] eqn:F; [eauto|].
  apply in_map_iff in H as ([n z] & <- & I). exfalso. apply (find_none _ _ F) in I. cbn in I. rewrite Nat.eqb_refl in I. discriminate.
Qed.

Lemma put_absent l h id : ~ In h (map fst l) -> put l h id = l.
Proof.
  induction l as [|[n z] l IH]; [reflexivity|]. cbn. intros H.
  destruct (Nat.eqb_spec n h) as [->|N]; [tauto|]. f_equal. apply IH. tauto.
Qed.
Lemma drop_absent l h : ~ In h (map fst l) -> drop l h = l.
Proof.
  induction l as [|[n z] l IH]; [reflexivity|]. cbn. intros H.
  destruct (Nat.eqb_spec n h) as [->|N]; [tauto|]. cbn. f_equal. apply IH. tauto.
Qed.
Lemma put_app a b h id : put (a ++ b) h id = put a h id ++ put b h id.
Proof. apply map_app. Qed.
Lemma drop_app a b h : drop (a ++ b) h = drop a h ++ drop b h.
Proof. apply filter_app. Qed.
Lemma put_fst l h id : map fst (put l h id) = map fst l.
Proof.
  unfold put. rewrite map_map. apply map_ext. intros [n z]. cbn. destruct (Nat.eqb_spec n h) as [->|]; reflexivity.
Qed.

(** A handle, among the others *)
Lemma handle_split l h id : NoDup (map fst l) -> In (h, id) l ->
  exists a b, l = a ++ (h, id) :: b /\ ~ In h (map fst a) /\ ~ In h (map fst b) /\
    get l h = Some id /\ (forall z, put l h z = a ++ (h, z) :: b) /\ drop l h = a ++ b.
Proof.
  intros N I. apply in_split in I as (a & b & ->). exists a, b.
  rewrite map_app in N. cbn in N. apply NoDup_remove in N as [N1 N2]. rewrite in_app_iff in N2.
  assert (A : ~ In h (map fst a)) by tauto. assert (B : ~ In h (map fst b)) by tauto.
  split; [reflexivity|]. split; [exact A|]. split; [exact B|]. split; [|split].
  - unfold get. clear N1 N2. induction a as [|[n z] a IH].
    + cbn. rewrite Nat.eqb_refl. reflexivity.
    + cbn in *. destruct (Nat.eqb_spec n h) as [->|]; [tauto|]. apply IH. tauto.
  - intros z. rewrite put_app, (put_absent a) by exact A.
    change (put ((h, id) :: b) h z) with ((if Nat.eqb h h then (h, z) else (h, id)) :: put b h z).
    rewrite Nat.eqb_refl, put_absent by exact B. reflexivity.
  - rewrite drop_app, (drop_absent a) by exact A.
    change (drop ((h, id) :: b) h) with (if negb (Nat.eqb h h) then (h, id) :: drop b h else drop b h).
    rewrite Nat.eqb_refl, drop_absent by exact B. reflexivity.
Qed.

Definition ids (l : list (nat * Z)) : list Z := filter (fun id => negb (id =? 0)) (map snd l).
Lemma held_ids s : held s = ids (handles s).
Proof. reflexivity. Qed.
Lemma ids_app a b : ids (a ++ b) = ids a ++ ids b.
Proof. unfold ids. rewrite map_app, filter_app. reflexivity. Qed.
Lemma ids_cons h id l : ids ((h, id) :: l) = (if id =? 0 then [] else [id]) ++ ids l.
Proof. unfold ids. cbn. destruct (id =? 0); reflexivity. Qed.
Lemma in_ids l h id : In (h, id) l -> id <> 0 -> In id (ids l).
Proof.
  intros I N. unfold ids. apply filter_In. split; [apply in_map_iff; exists (h, id); auto|].
  destruct (Z.eqb_spec id 0); [contradiction|reflexivity].
Qed.

Lemma is_open_spec s id : is_open s id = true <-> In id (opened s).
Proof. unfold is_open. destruct (in_dec Z.eq_dec id (opened s)); split; auto; discriminate. Qed.

Lemma remove_permutation id l m : NoDup l -> Permutation l (id :: m) -> Permutation (remove Z.eq_dec id l) m.
Proof.
  intros N P. assert (I : In id l) by (apply (Permutation_in id (Permutation_sym P)); left; reflexivity).
  apply in_split in I as (a & b & ->). pose proof (NoDup_remove_2 _ _ _ N) as Q. rewrite in_app_iff in Q.
  rewrite remove_app. cbn. destruct (Z.eq_dec id id); [|contradiction].
  rewrite !notin_remove by tauto. exact (Permutation_app_inv a b [] m id P).
Qed.
Lemma remove_nodup id l : NoDup l -> NoDup (remove Z.eq_dec id l).
Proof.
  induction 1 as [|x l N D IH]; cbn; [constructor|]. destruct (Z.eq_dec id x); [exact IH|]. constructor; [|exact IH].
  intros I. apply in_remove in I as [I _]. contradiction.
Qed.
Lemma remove_forall (p : Z -> Prop) id l : Forall p l -> Forall p (remove Z.eq_dec id l).
Proof. rewrite !Forall_forall. intros H x I. apply in_remove in I as [I _]. auto. Qed.

Lemma in_remove_iff id x l : In x (remove Z.eq_dec id l) <-> In x l /\ x <> id.
Proof. split; [apply in_remove|]. intros [I N]. apply in_in_remove; assumption. Qed.

Lemma one_positive s h id : one_handle s -> holds s h id -> id = 0 \/ (0 < id /\ In id (opened s)).
Proof.
  intros (_ & _ & P & F & _) H. destruct (Z.eq_dec id 0) as [->|N]; [left; reflexivity|right].
  assert (I : In id (opened s)).
  { apply (Permutation_in id (Permutation_sym P)). rewrite held_ids. apply (in_ids _ h); assumption. }
  split; [|exact I]. rewrite Forall_forall in F. auto.
Qed.

(** Releasing what a handle holds *)
Lemma release_one k s h id a b : one_handle s -> handles s = a ++ (h, id) :: b ->
  (k = Gdal \/ k = Netcdf -> id <> 0) ->
  exists s', release k id s = Ok s' /\ handles s' = handles s /\ refused s' = 0%nat /\ types s' = types s /\
    NoDup (opened s') /\ Forall (fun id => 0 < id) (opened s') /\ Permutation (opened s') (ids (a ++ b)) /\
    (forall x, In x (opened s') <-> In x (opened s) /\ x <> id).
Proof.
  intros O E Z. assert (H : holds s h id) by (unfold holds; rewrite E; apply in_elt).
  pose proof (one_positive s h id O H) as C. destruct O as (N & D & P & F & R). rewrite held_ids, E, ids_app, ids_cons in P.
  assert (X : id <> 0 -> exists s', close k id s = Ok s' /\ handles s' = handles s /\ refused s' = 0%nat /\ types s' = types s /\
    NoDup (opened s') /\ Forall (fun id => 0 < id) (opened s') /\ Permutation (opened s') (ids (a ++ b)) /\
    (forall x, In x (opened s') <-> In x (opened s) /\ x <> id)).
  { intros Nz. destruct C as [C|[C I]]; [contradiction|]. unfold close. rewrite (proj2 (is_open_spec s id) I).
    eexists. split; [reflexivity|]. cbn. split; [reflexivity|]. split; [exact R|]. split; [reflexivity|].
    split; [apply remove_nodup; exact D|]. split; [apply remove_forall; exact F|]. split; [|intros x; exact (in_remove_iff id x (opened s))].
    apply remove_permutation; [exact D|]. destruct (Z.eqb_spec id 0); [contradiction|]. rewrite ids_app.
    cbn [app] in P. etransitivity; [exact P|]. symmetry. apply Permutation_middle. }
  destruct (Z.eq_dec id 0) as [->|Nz].
  - exists s. assert (Y : ~ In 0 (opened s)) by (intros I; rewrite Forall_forall in F; specialize (F 0 I); lia).
    split; [destruct k; try reflexivity; exfalso; apply Z; auto|]. cbn in P.
    rewrite ids_app. split; [reflexivity|]. split; [exact R|]. split; [reflexivity|].
    split; [exact D|]. split; [exact F|]. split; [exact P|].
    intros x. split; [intros I; split; [exact I|intros ->; contradiction]|tauto].
  - destruct C as [C|[C I]]; [contradiction|]. specialize (X Nz). unfold release.
    replace (0 <? id) with true by (symmetry; apply Z.ltb_lt; exact C). destruct k; exact X.
Qed.
