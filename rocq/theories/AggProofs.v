(** Lemmas about aggregation. *)
From Coq Require Import ZArith List Bool Lia Permutation Sorted.
From Verif Require Import LangModel LangProofs ConcModel ConcProofs IndexModel IndexSpec
  IndexProofs LoopModel LoopSpec LoopProofs PolicyModel LocalModel LocalSpec LocalProofs
  AccumModel AggModel AggSpec.
Import ListNotations.
Open Scope Z_scope.

Definition zseq (i : Z) (n : nat) : list Z := map (fun k => i + Z.of_nat k) (List.seq 0 n).

Lemma zseq_cons i n : zseq i (S n) = i :: zseq (i + 1) n.
Proof.
  unfold zseq. cbn [List.seq map]. f_equal; [lia|].
  rewrite <- seq_shift, map_map. apply map_ext; intros; lia.
Qed.
Lemma in_zseq i n x : In x (zseq i n) <-> i <= x < i + Z.of_nat n.
Proof.
  unfold zseq. rewrite in_map_iff. split.
  - intros (k & <- & H). apply in_seq in H. lia.
  - intros H. exists (Z.to_nat (x - i)). split; [lia|]. apply in_seq; lia.
Qed.
Lemma zseq_zrange lo hi : zseq lo (Z.to_nat (hi - lo)) = zrange lo hi.
Proof. reflexivity. Qed.

Section P.
Context {V A : Type}.
Variable acc : accu V A.
Variables (ip : inpol V) (a : buf).

(** Reference folds. *)
Fixpoint cfold (x : A) (ok : bool) (vs : list V) : option (A * bool) :=
  match vs with
  | [] => Some (x, ok)
  | v :: vs' =>
      match a_add acc x v with
      | Some (y, true) => cfold y true vs'
      | o => o
      end
  end.

Definition opart (o : option (A * bool)) : option (partial (A := A)) :=
  option_map (fun r => (true, snd r, fst r)) o.

Definition ref_1d (vs : list V) : option (partial (A := A)) :=
  match vs with
  | [] => Some (false, true, a_init acc)
  | _ => opart (cfold (a_init acc) true vs)
  end.
Definition ref_2d (vs : list V) : option (partial (A := A)) :=
  match vs with
  | [] => Some (false, true, a_init acc)
  | v :: vs' =>
      match a_add acc (a_init acc) v with
      | None => None
      | Some (y, ok) => opart (cfold y ok vs')
      end
  end.

Definition keep {X} (m : mem V) (o : option X) : option (X * mem V) :=
  option_map (fun x => (x, m)) o.

Lemma run_lift {X} (o : option X) (m : mem V) : run (lift o) m = keep m o.
Proof. destruct o; reflexivity. Qed.

Lemma run_is_no_data_nd (m : mem V) i : readable ip m i ->
  run (is_no_data ip i) m = Some (nd_at ip m i, m).
Proof.
  destruct ip as [| |b nd|b f]; simpl; auto; intros H.
  - destruct (mmsk m b i); [reflexivity|congruence].
  - destruct (mval m b i); [reflexivity|congruence].
Qed.

(** One element. *)
Lemma run_add_element (m : mem V) i v x : mval m a i = Some v ->
  run (add_element acc a x i) m = keep m (a_add acc x v).
Proof.
  intros H. unfold add_element. rewrite run_bind. unfold rdv. cbn [run]. rewrite H.
  apply run_lift.
Qed.

Lemma valid_cons m i l : valid_values ip a m (i :: l) =
  match arg_at ip a m i with Some v => [v] | None => [] end ++ valid_values ip a m l.
Proof. reflexivity. Qed.
Lemma valid_app m l1 l2 :
  valid_values ip a m (l1 ++ l2) = valid_values ip a m l1 ++ valid_values ip a m l2.
Proof. apply flat_map_app. Qed.

Ltac element m i :=
  let Hr := fresh "Hr" in let Hv := fresh "Hv" in let v := fresh "v" in let E := fresh "E" in
  match goal with Hex : forall i, In i _ -> arg_exists ip a m i |- _ =>
    destruct (Hex i ltac:(auto with datatypes)) as [Hr Hv] end;
  rewrite run_bind, (run_is_no_data_nd m i Hr), valid_cons; unfold arg_at;
  destruct (nd_at ip m i); cbn [app];
  [ | destruct (mval m a i) as [v|] eqn:E; [|congruence]; cbn [app];
      rewrite run_bind, (run_add_element m i v _ E) ].

Lemma run_agg_1d_rest (m : mem V) n : forall i x,
  (forall k, In k (zseq i n) -> arg_exists ip a m k) ->
  run (agg_1d_rest acc ip a n i x) m = keep m (cfold x true (valid_values ip a m (zseq i n))).
Proof.
  induction n as [|n IH]; intros i x Hex; [reflexivity|].
  rewrite zseq_cons in *. cbn [agg_1d_rest].
  element m i.
  - apply IH; auto with datatypes.
  - cbn [cfold]. destruct (a_add acc x v) as [[y []]|]; cbn; auto.
    apply IH; auto with datatypes.
Qed.

Lemma run_agg_1d_first (m : mem V) n : forall i,
  (forall k, In k (zseq i n) -> arg_exists ip a m k) ->
  run (agg_1d_first acc ip a n i (a_init acc)) m =
  keep m (ref_1d (valid_values ip a m (zseq i n))).
Proof.
  induction n as [|n IH]; intros i Hex; [reflexivity|].
  rewrite zseq_cons in *. cbn [agg_1d_first].
  element m i.
  - apply IH; auto with datatypes.
  - unfold ref_1d. cbn [cfold]. destruct (a_add acc (a_init acc) v) as [[y []]|]; cbn [keep option_map snd fst opart]; auto.
    rewrite run_bind, run_agg_1d_rest by auto with datatypes.
    unfold opart, keep. destruct (cfold y true (valid_values ip a m (zseq (i + 1) n))) as [[z o]|]; reflexivity.
Qed.

Lemma run_agg_1d (m : mem V) r :
  (forall k, In k (indices r) -> arg_exists ip a m k) ->
  run (agg_1d acc ip a r) m = keep m (ref_1d (valid_values ip a m (indices r))).
Proof. intros H. apply run_agg_1d_first. exact H. Qed.

(** 2D *)
Lemma run_first_row (m : mem V) n : forall j idx x,
  (forall k, In k (zseq idx n) -> arg_exists ip a m k) ->
  (valid_values ip a m (zseq idx n) = [] /\
   run (agg_2d_first_row acc ip a n j idx x) m = Some (None, m)) \/
  exists k v, (k < n)%nat /\
    valid_values ip a m (zseq idx n) =
      v :: valid_values ip a m (zseq (idx + Z.of_nat k + 1) (n - k - 1)) /\
    run (agg_2d_first_row acc ip a n j idx x) m =
      keep m (option_map (fun r => Some (j + Z.of_nat k, r)) (a_add acc x v)).
Proof.
  induction n as [|n IH]; intros j idx x Hex; [left; auto|].
  rewrite zseq_cons in *. cbn [agg_2d_first_row].
  element m idx.
  - destruct (IH (j + 1) (idx + 1) x) as [[E1 E2]|(k & v & Hk & E1 & E2)]; auto with datatypes.
    right. exists (S k), v. split; [lia|]. split.
    + rewrite E1. replace (idx + 1 + Z.of_nat k + 1) with (idx + Z.of_nat (S k) + 1) by lia.
      replace (S n - S k - 1)%nat with (n - k - 1)%nat by lia. auto.
    + rewrite E2. replace (j + 1 + Z.of_nat k) with (j + Z.of_nat (S k)) by lia. auto.
  - right. exists O, v. split; [lia|]. split.
    + replace (idx + Z.of_nat 0 + 1) with (idx + 1) by lia. replace (S n - 0 - 1)%nat with n by lia. auto.
    + replace (j + Z.of_nat 0) with j by lia. destruct (a_add acc x v); reflexivity.
Qed.

Definition row (nc b2 e2 i : Z) : list Z := zseq (i * nc + b2) (Z.to_nat (e2 - b2)).
Definition rows_from (nc b2 e2 i : Z) (n : nat) : list Z :=
  flat_map (row nc b2 e2) (zseq i n).

Lemma rows_from_S nc b2 e2 i n :
  rows_from nc b2 e2 i (S n) = row nc b2 e2 i ++ rows_from nc b2 e2 (i + 1) n.
Proof. unfold rows_from. rewrite zseq_cons. reflexivity. Qed.

Lemma run_first (m : mem V) nc b2 e2 n : forall i x,
  (forall k, In k (rows_from nc b2 e2 i n) -> arg_exists ip a m k) ->
  (valid_values ip a m (rows_from nc b2 e2 i n) = [] /\
   run (agg_2d_first acc ip a nc b2 e2 n i x) m = Some (None, m)) \/
  exists p k v, (p < n)%nat /\ (k < Z.to_nat (e2 - b2))%nat /\
    valid_values ip a m (rows_from nc b2 e2 i n) =
      v :: valid_values ip a m
             (zseq ((i + Z.of_nat p) * nc + b2 + Z.of_nat k + 1) (Z.to_nat (e2 - b2) - k - 1)
              ++ rows_from nc b2 e2 (i + Z.of_nat p + 1) (n - p - 1)) /\
    run (agg_2d_first acc ip a nc b2 e2 n i x) m =
      keep m (option_map (fun r => Some (i + Z.of_nat p, b2 + Z.of_nat k, r)) (a_add acc x v)).
Proof.
  induction n as [|n IH]; intros i x Hex; [left; auto|].
  rewrite rows_from_S in *. cbn [agg_2d_first]. rewrite run_bind.
  destruct (run_first_row m (Z.to_nat (e2 - b2)) b2 (i * nc + b2) x)
    as [[E1 E2]|(k & v & Hk & E1 & E2)].
  { intros k Hk. apply Hex, in_or_app; left; exact Hk. }
  - rewrite E2. destruct (IH (i + 1) x) as [[F1 F2]|(p & k & v & Hp & Hk & F1 & F2)].
    { intros k Hk. apply Hex, in_or_app; auto. }
    + left. split; auto. unfold row. rewrite valid_app, E1, F1. auto.
    + right. exists (S p), k, v. split; [lia|]. split; [auto|]. split.
      * unfold row. rewrite valid_app, E1, F1. cbn [app].
        replace (i + Z.of_nat (S p)) with (i + 1 + Z.of_nat p) by lia.
        replace (S n - S p - 1)%nat with (n - p - 1)%nat by lia. auto.
      * rewrite F2. replace (i + Z.of_nat (S p)) with (i + 1 + Z.of_nat p) by lia. auto.
  - right. exists O, k, v. split; [lia|]. split; [auto|]. split.
    + unfold row. rewrite valid_app, E1. cbn [app]. rewrite valid_app.
      replace (i + Z.of_nat 0) with i by lia. replace (S n - 0 - 1)%nat with n by lia. auto.
    + rewrite E2. replace (i + Z.of_nat 0) with i by lia.
      destruct (a_add acc x v); reflexivity.
Qed.

Lemma cfold_app x ok us vs : cfold x ok (us ++ vs) =
  match cfold x true us with
  | None => None
  | Some (y, false) => Some (y, false)
  | Some (y, true) => match us with [] => cfold x ok vs | _ => cfold y true vs end
  end.
Proof.
  revert x ok; induction us as [|u us IH]; intros x ok; cbn [app cfold]; [auto|].
  destruct (a_add acc x u) as [[y []]|]; auto.
  rewrite IH. destruct (cfold y true us) as [[z []]|] eqn:E; auto.
  destruct us; auto. cbn in E. inversion E; auto.
Qed.

Lemma run_rest_row (m : mem V) n : forall idx x ok,
  (forall k, In k (zseq idx n) -> arg_exists ip a m k) ->
  run (agg_2d_rest_row acc ip a n idx (x, ok)) m =
  match valid_values ip a m (zseq idx n) with
  | [] => Some ((x, ok, false), m)
  | vs => keep m (option_map (fun r => (r, negb (snd r))) (cfold x ok vs))
  end.
Proof.
  induction n as [|n IH]; intros idx x ok Hex; [reflexivity|].
  rewrite zseq_cons in *. cbn [agg_2d_rest_row].
  element m idx.
  - apply IH; auto with datatypes.
  - cbn [fst cfold]. destruct (a_add acc x v) as [[y []]|]; cbn [keep option_map snd fst negb]; auto.
    rewrite IH by auto with datatypes.
    destruct (valid_values ip a m (zseq (idx + 1) n)); reflexivity.
Qed.

Lemma cfold_ok_nil x ok vs : vs <> [] -> cfold x ok vs = cfold x true vs.
Proof. destruct vs; [congruence|]; reflexivity. Qed.

Lemma run_rest (m : mem V) nc b2 e2 n : forall i j x ok,
  (forall k, In k (zseq (i * nc + j) (Z.to_nat (e2 - j)) ++ rows_from nc b2 e2 (i + 1) n) ->
     arg_exists ip a m k) ->
  run (agg_2d_rest acc ip a nc b2 e2 (S n) i j (x, ok)) m =
  keep m (cfold x ok (valid_values ip a m
     (zseq (i * nc + j) (Z.to_nat (e2 - j)) ++ rows_from nc b2 e2 (i + 1) n))).
Proof.
  induction n as [|n IH]; intros i j x ok Hex.
  - change (rows_from nc b2 e2 (i + 1) 0) with (@nil Z) in *. rewrite app_nil_r in *.
    cbn [agg_2d_rest]. rewrite run_bind, run_rest_row by auto.
    destruct (valid_values ip a m (zseq (i * nc + j) (Z.to_nat (e2 - j)))) as [|v vs] eqn:E; [reflexivity|].
    destruct (cfold x ok (v :: vs)) as [[y []]|]; reflexivity.
  - change (agg_2d_rest acc ip a nc b2 e2 (S (S n)) i j (x, ok)) with
      (bind (agg_2d_rest_row acc ip a (Z.to_nat (e2 - j)) (i * nc + j) (x, ok)) (fun s =>
        if snd s : bool then Ret (fst s)
        else agg_2d_rest acc ip a nc b2 e2 (S n) (i + 1) b2 (fst s))).
    rewrite run_bind, run_rest_row by (intros k Hk; apply Hex, in_or_app; auto).
    rewrite valid_app.
    rewrite rows_from_S in *.
    assert (Hex' : forall k, In k (zseq ((i + 1) * nc + b2) (Z.to_nat (e2 - b2)) ++
                       rows_from nc b2 e2 (i + 1 + 1) n) -> arg_exists ip a m k).
    { intros k Hk. apply Hex, in_or_app; auto. }
    destruct (valid_values ip a m (zseq (i * nc + j) (Z.to_nat (e2 - j)))) as [|v vs] eqn:E.
    + cbn [app snd fst]. rewrite IH by auto. reflexivity.
    + rewrite cfold_app. rewrite (cfold_ok_nil x ok (v :: vs)) by discriminate.
      destruct (cfold x true (v :: vs)) as [[y []]|]; cbn [keep option_map snd fst negb]; auto.
      rewrite IH by auto. reflexivity.
Qed.

Lemma block_elements_rows nc blk :
  block_elements nc blk =
  rows_from nc (rbegin (snd blk)) (rend (snd blk)) (rbegin (fst blk))
    (Z.to_nat (rend (fst blk) - rbegin (fst blk))).
Proof.
  unfold block_elements, cells2, rows_from, indices.
  change (zrange (rbegin (fst blk)) (rend (fst blk))) with
    (zseq (rbegin (fst blk)) (Z.to_nat (rend (fst blk) - rbegin (fst blk)))).
  generalize (zseq (rbegin (fst blk)) (Z.to_nat (rend (fst blk) - rbegin (fst blk)))).
  induction l as [|i l IH]; [reflexivity|]. cbn [flat_map]. rewrite map_app, IH. f_equal.
  unfold row, zrange, zseq. rewrite !map_map. apply map_ext. intros k.
  unfold linear; cbn [fst snd]. lia.
Qed.

Lemma rows_from_empty nc b2 e2 i n : e2 <= b2 -> rows_from nc b2 e2 i n = [].
Proof.
  intros H. unfold rows_from, row. replace (Z.to_nat (e2 - b2)) with O by lia.
  induction (zseq i n); simpl; auto.
Qed.

Lemma run_agg_2d (m : mem V) nc blk :
  (forall k, In k (block_elements nc blk) -> arg_exists ip a m k) ->
  run (agg_2d acc ip a nc blk) m = keep m (ref_2d (valid_values ip a m (block_elements nc blk))).
Proof.
  intros Hex. rewrite block_elements_rows in *. unfold agg_2d.
  set (b1 := rbegin (fst blk)) in *. set (e1 := rend (fst blk)) in *.
  set (b2 := rbegin (snd blk)) in *. set (e2 := rend (snd blk)) in *.
  destruct (Z.ltb_spec b1 e1) as [H1|H1]; cycle 1.
  { replace (Z.to_nat (e1 - b1)) with O by lia. reflexivity. }
  destruct (Z.ltb_spec b2 e2) as [H2|H2]; cycle 1.
  { cbn [andb]. rewrite rows_from_empty by lia. reflexivity. }
  cbn [andb]. rewrite run_bind.
  destruct (run_first m nc b2 e2 (Z.to_nat (e1 - b1)) b1 (a_init acc) Hex)
    as [[E1 E2]|(p & k & v & Hp & Hk & E1 & E2)].
  { rewrite E2, E1. reflexivity. }
  rewrite E2, E1. unfold ref_2d.
  assert (Hex' : forall q,
     In q (zseq ((b1 + Z.of_nat p) * nc + b2 + Z.of_nat k + 1) (Z.to_nat (e2 - b2) - k - 1)
              ++ rows_from nc b2 e2 (b1 + Z.of_nat p + 1) (Z.to_nat (e1 - b1) - p - 1)) ->
     arg_exists ip a m q).
  { intros q Hq. apply Hex. apply in_app_or in Hq. unfold rows_from in *.
    rewrite in_flat_map in *. destruct Hq as [Hq|(i & Hi & Hq)].
    - exists (b1 + Z.of_nat p). rewrite in_zseq in *. unfold row. rewrite in_zseq. lia.
    - exists i. rewrite in_zseq in *. split; [lia|auto]. }
  set (rest := zseq _ _ ++ _) in *.
  destruct (a_add acc (a_init acc) v) as [[y ok]|]; cbn [option_map keep]; auto.
  destruct (Z.ltb_spec (b2 + Z.of_nat k) (e2 - 1)) as [H3|H3].
  - rewrite run_bind.
    replace (Z.to_nat (e1 - (b1 + Z.of_nat p))) with (S (Z.to_nat (e1 - b1) - p - 1)) by lia.
    assert (Er : zseq ((b1 + Z.of_nat p) * nc + (b2 + Z.of_nat k + 1))
                   (Z.to_nat (e2 - (b2 + Z.of_nat k + 1))) ++
                 rows_from nc b2 e2 (b1 + Z.of_nat p + 1) (Z.to_nat (e1 - b1) - p - 1) = rest).
    { unfold rest. f_equal. f_equal; lia. }
    rewrite run_rest; rewrite Er; auto.
    destruct (cfold y ok (valid_values ip a m rest)) as [[z o]|]; reflexivity.
  - rewrite run_bind.
    assert (Hrest : rest = rows_from nc b2 e2 (b1 + Z.of_nat p + 1) (Z.to_nat (e1 - b1) - p - 1)).
    { unfold rest. replace (Z.to_nat (e2 - b2) - k - 1)%nat with O by lia. reflexivity. }
    destruct (Z.to_nat (e1 - b1) - p - 1)%nat as [|q] eqn:Q.
    + replace (Z.to_nat (e1 - (b1 + Z.of_nat p + 1))) with O by lia.
      rewrite Hrest. reflexivity.
    + replace (Z.to_nat (e1 - (b1 + Z.of_nat p + 1))) with (S q) by lia.
      rewrite Hrest in Hex'. rewrite rows_from_S in *. unfold row in *.
      rewrite run_rest by exact Hex'. rewrite <- Hrest.
      destruct (cfold y ok (valid_values ip a m rest)) as [[z o]|]; reflexivity.
Qed.

Lemma run_agg_0d (m : mem V) : arg_exists ip a m 0 ->
  run (agg_0d acc ip a) m = keep m (ref_1d (valid_values ip a m [0])).
Proof.
  intros [Hr Hv]. unfold agg_0d, valid_values. cbn [flat_map].
  rewrite run_bind, (run_is_no_data_nd m 0 Hr). unfold arg_at.
  destruct (nd_at ip m 0); [reflexivity|].
  destruct (mval m a 0) as [v|] eqn:E; [|congruence].
  rewrite run_bind, (run_add_element m 0 v _ E). cbn [app ref_1d cfold].
  destruct (a_add acc (a_init acc) v) as [[y []]|]; reflexivity.
Qed.

(** Tasks only read. *)
Definition readonly (W : loc -> bool) : Prop := forall l, W l = false.

Lemma fits_readonly_is_no_data i : fits all_locs (fun _ => false) (is_no_data ip i).
Proof.
  destruct ip as [| |b nd|b f]; unfold is_no_data.
  - exact I.
  - exact I.
  - apply fits_bind; [|intros; exact I]. split; [reflexivity|intros; exact I].
  - apply fits_bind; [|intros; exact I]. split; [reflexivity|intros; exact I].
Qed.
Lemma fits_add_element x i : fits all_locs (fun _ => false) (add_element acc a x i).
Proof.
  unfold add_element. apply fits_bind.
  - split; [reflexivity|intros; exact I].
  - intros v. destruct (a_add acc x v); exact I.
Qed.

Ltac ro IH :=
  apply fits_bind; [apply fits_readonly_is_no_data|];
  intros []; [apply IH|]; apply fits_bind; [apply fits_add_element|].

Lemma fits_agg_1d_rest n : forall i x, fits all_locs (fun _ => false) (agg_1d_rest acc ip a n i x).
Proof.
  induction n as [|n IH]; intros i x; [exact I|]. cbn [agg_1d_rest]. ro IH.
  intros [y []]; [apply IH|exact I].
Qed.
Lemma fits_agg_1d r : fits all_locs (fun _ => false) (agg_1d acc ip a r).
Proof.
  unfold agg_1d. generalize (Z.to_nat (rend r - rbegin r)). intros n.
  generalize (rbegin r) (a_init acc). induction n as [|n IH]; intros i x; [exact I|].
  cbn [agg_1d_first]. ro IH. intros [y []]; [|exact I].
  apply fits_bind; [apply fits_agg_1d_rest|intros; exact I].
Qed.

Lemma fits_first_row n : forall j idx x,
  fits all_locs (fun _ => false) (agg_2d_first_row acc ip a n j idx x).
Proof.
  induction n as [|n IH]; intros j idx x; [exact I|]. cbn [agg_2d_first_row]. ro IH.
  intros; exact I.
Qed.
Lemma fits_first nc b2 e2 n : forall i x,
  fits all_locs (fun _ => false) (agg_2d_first acc ip a nc b2 e2 n i x).
Proof.
  induction n as [|n IH]; intros i x; [exact I|]. cbn [agg_2d_first].
  apply fits_bind; [apply fits_first_row|]. intros [[j r]|]; [exact I|apply IH].
Qed.
Lemma fits_rest_row n : forall idx xo,
  fits all_locs (fun _ => false) (agg_2d_rest_row acc ip a n idx xo).
Proof.
  induction n as [|n IH]; intros idx xo; [exact I|]. cbn [agg_2d_rest_row]. ro IH.
  intros [y []]; [apply IH|exact I].
Qed.
Lemma fits_rest nc b2 e2 n : forall i j xo,
  fits all_locs (fun _ => false) (agg_2d_rest acc ip a nc b2 e2 n i j xo).
Proof.
  induction n as [|n IH]; intros i j xo; [exact I|]. cbn [agg_2d_rest].
  apply fits_bind; [apply fits_rest_row|]. intros [y []]; [exact I|apply IH].
Qed.
Lemma fits_agg_2d nc blk : fits all_locs (fun _ => false) (agg_2d acc ip a nc blk).
Proof.
  unfold agg_2d. destruct (_ && _); [|exact I].
  apply fits_bind; [apply fits_first|]. intros [[[i j] r]|]; [|exact I].
  destruct (_ <? _); (apply fits_bind; [apply fits_rest|intros; exact I]).
Qed.

(** Relating the reference folds to the specification. *)
Lemma cfold_accumulates x vs y : accumulates acc x vs y -> cfold x true vs = Some (y, true).
Proof. induction 1 as [|x v y vs z E _ IH]; cbn [cfold]; [auto|]. rewrite E; auto. Qed.
Lemma cfold_accumulates_inv vs : forall x y, cfold x true vs = Some (y, true) -> accumulates acc x vs y.
Proof.
  induction vs as [|v vs IH]; intros x y E; cbn [cfold] in E.
  - inversion E; constructor.
  - destruct (a_add acc x v) as [[z []]|] eqn:F; try discriminate. econstructor; eauto.
Qed.
Lemma cfold_leaves x vs : leaves_range acc x vs -> exists y, cfold x true vs = Some (y, false).
Proof.
  intros (us & v & ws & y & z & -> & H & E). exists z.
  induction H as [x|x u y us t F _ IH]; cbn [app cfold].
  - rewrite E; auto.
  - rewrite F; auto.
Qed.
Lemma cfold_leaves_inv vs : forall x y, cfold x true vs = Some (y, false) -> leaves_range acc x vs.
Proof.
  induction vs as [|v vs IH]; intros x y E; cbn [cfold] in E; [discriminate|].
  destruct (a_add acc x v) as [[z []]|] eqn:F; try discriminate.
  - destruct (IH z y E) as (us & w & ws & y' & z' & -> & G & H).
    exists (v :: us), w, ws, y', z'. split; [auto|]. split; [econstructor; eauto|auto].
  - exists [], v, vs, x, z. split; [auto|]. split; [constructor|auto].
Qed.

(** The end. *)
Lemma finish_value (op : outpol V) rb (m : mem V) y r : result_exists op rb m 0 ->
  a_result acc y = Some r ->
  computes (agg_finish acc op rb (true, true, y)) op rb 1 (fun _ => Value r) m.
Proof.
  intros [Hv Hm] Hr. unfold agg_finish. cbn [andb].
  exists (set_v m rb 0 r). rewrite run_bind, run_lift, Hr. cbn [keep option_map].
  destruct (mval m rb 0) as [old|] eqn:E; [|congruence].
  split; [unfold wrv; cbn [run]; rewrite E; reflexivity|]. split.
  - intros i Hi. replace i with 0 by lia. split.
    + cbn [mval set_v]. rewrite same_refl, E. reflexivity.
    + intros c Hc. cbn [mmsk set_v]. destruct (mmsk m c 0); reflexivity.
  - split; intros b i H; cbn [mval mmsk set_v]; auto.
    replace (same rb b 0 i) with false; auto. symmetry. apply same_false.
    destruct H as [H|H]; [left; congruence|right]. intros <-. apply H, in_zrange; lia.
Qed.

Lemma mark_computes (op : outpol V) rb (m : mem V) : result_exists op rb m 0 ->
  marks_result op rb ->
  computes (mark_as_no_data op 0) op rb 1 (fun _ => NoData) m.
Proof.
  intros [Hv Hm] Hr. destruct op as [|b nd|b nd]; cbn [mark_as_no_data].
  - exists m. split; [reflexivity|]. split.
    + intros i Hi. split; [|intros c Hc; discriminate].
      destruct (mval m rb i); reflexivity.
    + split; auto.
  - exists (set_m m b 0 nd). destruct (mmsk m b 0) as [old|] eqn:E; [|congruence].
    split; [unfold wrm; cbn [run]; rewrite E; reflexivity|]. split.
    + intros i Hi. replace i with 0 by lia. split.
      * cbn [mval set_m]. destruct (mval m rb 0); reflexivity.
      * intros c Hc. injection Hc as <-. cbn [mmsk set_m]. rewrite same_refl, E. reflexivity.
    + split; intros c i H; cbn [mval mmsk set_m]; auto.
      replace (same b c 0 i) with false; auto. symmetry. apply same_false.
      destruct H as [H|H]; [left|right].
      * intros ->. apply H; reflexivity.
      * intros <-. apply H, in_zrange; lia.
  - cbn in Hr. subst b. exists (set_v m rb 0 nd). destruct (mval m rb 0) as [old|] eqn:E; [|congruence].
    split; [unfold wrv; cbn [run]; rewrite E; reflexivity|]. split.
    + intros i Hi. replace i with 0 by lia. split.
      * cbn [mval set_v]. rewrite same_refl, E. reflexivity.
      * intros c Hc; discriminate.
    + split; intros b i H; cbn [mval mmsk set_v]; auto.
      replace (same rb b 0 i) with false; auto. symmetry. apply same_false.
      destruct H as [H|H]; [left; congruence|right]. intros <-. apply H, in_zrange; lia.
Qed.

Lemma finish_nodata (op : outpol V) rb (m : mem V) ini ok y : result_exists op rb m 0 ->
  marks_result op rb -> ini && ok = false ->
  computes (agg_finish acc op rb (ini, ok, y)) op rb 1 (fun _ => NoData) m.
Proof. intros. unfold agg_finish. rewrite H1. apply mark_computes; auto. Qed.

Lemma computes_bind {X} (p : prog V X) x (f : X -> prog V unit) op rb n o (m : mem V) :
  run p m = Some (x, m) -> computes (f x) op rb n o m -> computes (bind p f) op rb n o m.
Proof.
  intros Hp (m' & Hr & H). exists m'. rewrite run_bind, Hp. auto.
Qed.
End P.

(** ** Parallel aggregation *)
Section Par.
Context {V A : Type}.
Variable acc : accu V A.

Lemma ro_race_free n : race_free n (fun _ => all_locs) (fun _ _ => false).
Proof. intros i j _ _ _ l H. discriminate. Qed.

Lemma run_seq_all_ro {X} (m : mem V) : forall (ps : list (prog V X)) outs,
  Forall2 (fun p o => run p m = Some (o, m)) ps outs ->
  run (seq_all ps) m = Some (outs, m).
Proof.
  induction 1 as [|p o ps outs H _ IH]; [reflexivity|].
  cbn [seq_all]. rewrite run_bind, H, run_bind, IH. reflexivity.
Qed.

Lemma ro_mem (m : mem V) {X} (ps : list (prog V X)) sched ps' m' :
  (forall p, In p ps -> fits all_locs (fun _ => false) p) ->
  exec sched ps m = Some (ps', m') ->
  mem_eq m' m /\ (forall p, In p ps' -> fits all_locs (fun _ => false) p).
Proof.
  revert ps m; induction sched as [|k sched IH]; intros ps m Hf E; cbn [exec] in E.
  - inversion E; subst. split; auto. apply mem_eq_refl.
  - unfold step_task in E. destruct (nth_error ps k) as [p|] eqn:Ep; [|apply IH in E; auto].
    destruct (step p m) as [[p' m1]|] eqn:Es; [|discriminate].
    assert (Hp := Hf p (nth_error_In _ _ Ep)).
    assert (M : mem_eq m1 m).
    { intros l. apply same_at_sym. eapply same_at_sym. eapply (step_frame all_locs (fun _ => false)); eauto. }
    destruct (IH (replace_nth ps k p') m1) as [M' F']; auto.
    + intros q Hq. apply In_nth_error in Hq as [j Hj].
      destruct (Nat.eq_dec j k) as [->|N].
      * rewrite nth_error_replace_same in Hj by (apply nth_error_Some; congruence).
        inversion Hj; subst. eapply step_fits; eauto.
      * rewrite nth_error_replace_other in Hj by auto. apply Hf. eapply nth_error_In; eauto.
    + split; auto. eapply mem_eq_trans; eauto.
Qed.

Lemma computes_mem_eq (p : prog V unit) op rb n o (m m1 : mem V) :
  mem_eq m1 m -> computes p op rb n o m -> computes p op rb n o m1.
Proof.
  intros E (m' & R & H & C).
  destruct (run_mem_eq p m m1 tt m') as (m1' & R1 & E1); auto.
  { apply mem_eq_sym; auto. }
  assert (Ev : forall b i, mval m1 b i = mval m b i) by (intros b i; apply (E (LV b i))).
  assert (Em : forall b i, mmsk m1 b i = mmsk m b i) by (intros b i; apply (E (LM b i))).
  assert (Ev' : forall b i, mval m1' b i = mval m' b i)
    by (intros b i; first [apply (E1 (LV b i))|symmetry; apply (E1 (LV b i))]).
  assert (Em' : forall b i, mmsk m1' b i = mmsk m' b i)
    by (intros b i; first [apply (E1 (LM b i))|symmetry; apply (E1 (LM b i))]).
  exists m1'. split; auto. split.
  - intros i Hi. destruct (H i Hi) as [H1 H2]. split.
    + rewrite Ev', Ev; auto.
    + intros c Hc. rewrite Em', Em; auto.
  - destruct C as [C1 C2]. split; intros b i Hb.
    + rewrite Ev', Ev; auto.
    + rewrite Em', Em; auto.
Qed.

Lemma joins (tasks : list (prog V partial)) outs op rb o (m : mem V) :
  (forall p, In p tasks -> fits all_locs (fun _ => false) p) ->
  Forall2 (fun p x => run p m = Some (x, m)) tasks outs ->
  computes (agg_join acc op rb outs) op rb 1 (fun _ => o) m ->
  joins_to acc tasks op rb o m.
Proof.
  intros Hf Ho Hj.
  assert (Hw : within (fun _ => all_locs) (fun _ _ => false) tasks).
  { intros k p Hp. apply Hf. eapply nth_error_In; eauto. }
  assert (Hs := run_seq_all_ro m tasks outs Ho).
  split; [eapply race_free_no_race; eauto; apply ro_race_free|].
  intros sched.
  destruct (interleaving_sequential (length tasks) (fun _ => all_locs) (fun _ _ => false) m tasks
              outs m sched (ro_race_free _) eq_refl Hw Hs) as (ps' & m' & H1 & H2).
  destruct (interleaving_completes (length tasks) (fun _ => all_locs) (fun _ _ => false) m tasks
              outs m sched (ro_race_free _) eq_refl Hw Hs) as (s' & ps2 & m2 & H3 & H4 & _).
  exists ps', m'. split; [auto|]. split; [eapply ro_mem; eauto|]. split.
  - intros results ->. destruct (H2 results eq_refl) as [-> M].
    eapply computes_mem_eq; eauto.
  - rewrite exec_app, H1 in H3. exists s', outs, m2. subst. auto.
Qed.
End Par.

Section Combine.
Context {V A : Type}.
Variable acc : accu V A.

Lemma accumulates_det x vs y z : accumulates acc x vs y -> accumulates acc x vs z -> y = z.
Proof.
  intros H. revert z. induction H as [|x v y vs t E _ IH]; intros z Hz; inversion Hz; subst; auto.
  rewrite E in *. match goal with H : Some _ = Some _ |- _ => inversion H; subst end. auto.
Qed.
Lemma accumulates_app x us vs y z : accumulates acc x us y -> accumulates acc y vs z ->
  accumulates acc x (us ++ vs) z.
Proof. induction 1; simpl; auto. econstructor; eauto. Qed.
Lemma accumulates_app_inv us : forall x vs z, accumulates acc x (us ++ vs) z ->
  exists y, accumulates acc x us y /\ accumulates acc y vs z.
Proof.
  induction us as [|u us IH]; intros x vs z H; simpl in *.
  - exists x. split; [constructor|auto].
  - inversion H; subst. destruct (IH _ _ _ H5) as (y' & H1 & H2).
    exists y'. split; [econstructor; eauto|auto].
Qed.

(** The result of a block that accumulates within range. *)
Definition block_result (vs : list V) (x : A) : partial :=
  match vs with [] => (false, true, a_init acc) | _ => (true, true, x) end.

Lemma ref_1d_block vs x : accumulates acc (a_init acc) vs x ->
  ref_1d acc vs = Some (block_result vs x).
Proof.
  intros H. unfold ref_1d, block_result. destruct vs; auto.
  rewrite (cfold_accumulates acc _ _ _ H). reflexivity.
Qed.
Lemma ref_2d_block vs x : accumulates acc (a_init acc) vs x ->
  ref_2d acc vs = Some (block_result vs x).
Proof.
  intros H. unfold ref_2d, block_result. destruct vs as [|v vs]; auto.
  inversion H; subst. rewrite H3. rewrite (cfold_accumulates acc _ _ _ H5). reflexivity.
Qed.

Lemma combine_blocks : forall vss us xs x ini,
  mergeable acc (us ++ concat vss) ->
  Forall2 (fun vs x => accumulates acc (a_init acc) vs x) vss xs ->
  accumulates acc (a_init acc) us x ->
  (ini = false -> us = []) ->  (ini = true -> us <> []) ->
  exists ini' z, agg_combine acc (ini, ini, x)
      (map (fun p => block_result (fst p) (snd p)) (combine vss xs)) = Some (ini', ini', z) /\
    accumulates acc (a_init acc) (us ++ concat vss) z /\
    (ini' = false -> us ++ concat vss = []) /\ (ini' = true -> us ++ concat vss <> []).
Proof.
  induction vss as [|vs vss IH]; intros us xs x ini [M1 M2] Hx Hu I1 I2;
    inversion Hx as [|? x1 ? xs1 Hx1 Hxs]; subst; cbn [combine map concat].
  - exists ini, x. rewrite app_nil_r. auto.
  - cbn [agg_combine fst snd]. destruct vs as [|v vs].
    + cbn [block_result app]. apply IH; auto. cbn [concat app] in *. split; auto.
    + cbn [block_result].
      destruct (M2 us (v :: vs) (concat vss) x x1) as (z & Ez & Hz); auto.
      rewrite Ez.
      destruct (IH (us ++ v :: vs) xs1 z true) as (ini' & z' & E & Hz' & J1 & J2); auto.
      * rewrite <- app_assoc. cbn [concat] in M1, M2. split; auto.
      * discriminate.
      * intros _ C. apply app_eq_nil in C as [_ C]; discriminate.
      * exists ini', z'. rewrite <- app_assoc in *. auto.
Qed.

Lemma blocks_accumulate vss : mergeable acc (concat vss) ->
  exists xs, Forall2 (fun vs x => accumulates acc (a_init acc) vs x) vss xs.
Proof.
  intros [M1 _].
  assert (H : forall us, (forall u xs ws, us ++ concat vss = u ++ xs ++ ws ->
               exists x, accumulates acc (a_init acc) xs x) ->
             exists xs, Forall2 (fun vs x => accumulates acc (a_init acc) vs x) vss xs).
  { clear M1. induction vss as [|vs vss IH]; intros us M; [exists []; constructor|].
    destruct (M us vs (concat vss)) as [x Hx]; [reflexivity|].
    destruct (IH (us ++ vs)) as [xs Hxs].
    { intros u w t E. apply (M u w t). rewrite <- E, <- app_assoc. reflexivity. }
    exists (x :: xs). constructor; auto. }
  apply (H []). exact M1.
Qed.

Lemma join_mergeable vss op rb (m : mem V) :
  result_exists op rb m 0 -> marks_result op rb -> mergeable acc (concat vss) ->
  exists xs, Forall2 (fun vs x => accumulates acc (a_init acc) vs x) vss xs /\
    let results := map (fun p => block_result (fst p) (snd p)) (combine vss xs) in
    (concat vss = [] -> computes (agg_join acc op rb results) op rb 1 (fun _ => NoData) m) /\
    (forall z r, concat vss <> [] -> accumulates acc (a_init acc) (concat vss) z ->
       a_result acc z = Some r ->
       computes (agg_join acc op rb results) op rb 1 (fun _ => Value r) m).
Proof.
  intros Hres Hmr HM. destruct (blocks_accumulate vss HM) as [xs Hxs].
  exists xs. split; [auto|]. cbv zeta.
  destruct (combine_blocks vss [] xs (a_init acc) false) as (ini & z & E & Hz & I1 & I2); auto.
  { constructor. } { discriminate. }
  cbn [app] in *. unfold agg_join. split.
  - intros Hn. eapply (computes_bind _ (ini, ini, z)).
    + rewrite run_lift, E. reflexivity.
    + apply finish_nodata; auto. destruct ini; auto. exfalso; apply I2; auto.
  - intros z' r Hn Hz' Hr. eapply (computes_bind _ (ini, ini, z)).
    + rewrite run_lift, E. reflexivity.
    + destruct ini; [|exfalso; auto].
      replace z with z' by (eapply accumulates_det; eauto). apply finish_value; auto.
Qed.

(** Blocks of a parallel aggregation, as lists of elements. *)
Lemma tasks_run {X B} (op : B -> prog V X) (elems : B -> list Z) (bs : list B)
    (ip : inpol V) (a : buf) (m : mem V) (ref : list V -> option X) outs :
  (forall b, In b bs -> run (op b) m = keep m (ref (valid_values ip a m (elems b)))) ->
  Forall2 (fun vs o => ref vs = Some o) (map (fun b => valid_values ip a m (elems b)) bs) outs ->
  Forall2 (fun p o => run p m = Some (o, m)) (map op bs) outs.
Proof.
  intros Hb H. remember (map _ bs) as l eqn:El. revert bs Hb El.
  induction H as [|vs o vss outs E _ IH]; intros bs Hb El.
  - destruct bs; [constructor|discriminate].
  - destruct bs as [|b bs]; [discriminate|]. inversion El; subst. cbn [map]. constructor.
    + rewrite Hb by (left; auto). rewrite E. reflexivity.
    + apply IH; auto. intros; apply Hb; right; auto.
Qed.

Lemma concat_valid {B} (elems : B -> list Z) (bs : list B) (ip : inpol V) (a : buf) (m : mem V) :
  concat (map (fun b => valid_values ip a m (elems b)) bs) =
  valid_values ip a m (concat (map elems bs)).
Proof.
  induction bs as [|b bs IH]; [reflexivity|]. cbn [map concat]. rewrite valid_app, IH. auto.
Qed.

Lemma map_blocks_ref ref vss xs :
  (forall vs x, accumulates acc (a_init acc) vs x -> ref vs = Some (block_result vs x)) ->
  Forall2 (fun vs x => accumulates acc (a_init acc) vs x) vss xs ->
  Forall2 (fun vs o => ref vs = Some o) vss
    (map (fun p => block_result (fst p) (snd p)) (combine vss xs)).
Proof. intros Hr. induction 1; cbn [combine map]; constructor; auto. Qed.
End Combine.
