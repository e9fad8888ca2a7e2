(** * Proofs about arrays of NumPy *)
From Coq Require Import ZArith List Bool Arith Lia.
From Verif Require Import NumpyModel NumpySpec.
Import ListNotations.
Open Scope Z_scope.

(** ** Bytes *)
Lemma to_bytes_length w : forall z, length (to_bytes w z) = w.
Proof. induction w as [|w IH]; intros z; [reflexivity|]. cbn. rewrite IH. reflexivity. Qed.
Lemma encode_length t v : length (encode t v) = fst t.
Proof. apply to_bytes_length. Qed.
Lemma limit_S w : limit (S w) = 256 * limit w.
Proof. unfold limit. rewrite Nat2Z.inj_succ, Z.pow_succ_r by lia. reflexivity. Qed.
Lemma limit_pos w : 0 < limit w.
Proof. unfold limit. apply Z.pow_pos_nonneg; lia. Qed.
Lemma of_to_bytes w : forall z, of_bytes (to_bytes w z) = z mod limit w.
Proof.
  induction w as [|w IH]; intros z.
  - cbn. unfold limit. cbn. rewrite Z.mod_1_r. reflexivity.
  - cbn [to_bytes of_bytes]. rewrite IH, limit_S. pose proof (limit_pos w).
    rewrite Z.rem_mul_r by lia. reflexivity.
Qed.

Lemma decode_unsigned w k v : k <> Signed -> 0 <= v < limit w -> decode (w, k) (encode (w, k) v) = v.
Proof.
  intros K B. unfold decode, encode. cbn [fst snd]. rewrite of_to_bytes, Z.mod_small by exact B. destruct k; congruence.
Qed.
Lemma decode_signed w v : - limit w <= 2 * v < limit w -> decode (w, Signed) (encode (w, Signed) v) = v.
Proof.
  intros B. unfold decode, encode. cbn [fst snd]. rewrite of_to_bytes. pose proof (limit_pos w).
  destruct (Z.ltb_spec v 0) as [N|N].
  - replace (v mod limit w) with (v + limit w).
    + destruct (Z.ltb_spec (2 * (v + limit w)) (limit w)); lia.
    + apply Z.mod_unique with (q := -1); [left; lia|lia].
  - rewrite Z.mod_small by lia. destruct (Z.ltb_spec (2 * v) (limit w)); lia.
Qed.
Lemma decode_encode t v : has_value t v -> decode (cpp t) (encode (cpp t) v) = v.
Proof.
  intros H. destruct t; cbn [cpp has_value] in *;
    first [apply decode_signed|apply decode_unsigned; [discriminate|]];
    match goal with |- context [limit ?w] => let x := eval vm_compute in (limit w) in change (limit w) with x end; lia.
Qed.

(** NumPy's types are those of C++ *)
Lemma numpy_type_spec t : item_type (numpy_type t) = cpp t.
Proof. destruct t; reflexivity. Qed.
Lemma cpp_sort t : snd (cpp t) = sort_of t.
Proof. destruct t; reflexivity. Qed.
Lemma cpp_width t : (0 < fst (cpp t))%nat.
Proof. destruct t; cbn; lia. Qed.

(** ** Lists *)
Lemma replace_length {A} (l : list A) : forall i a, length (replace l i a) = length l.
Proof. induction l as [|x l IH]; intros [|i] a; cbn; auto. Qed.
Lemma nth_replace_same {A} (l : list A) : forall i a, (i < length l)%nat -> nth_error (replace l i a) i = Some a.
Proof. induction l as [|x l IH]; intros [|i] a H; cbn in *; try lia; auto. apply IH. lia. Qed.
Lemma nth_replace_other {A} (l : list A) : forall i k a, i <> k -> nth_error (replace l i a) k = nth_error l k.
Proof. induction l as [|x l IH]; intros [|i] [|k] a H; cbn; auto; try congruence. Qed.

Lemma flat_map_length_encode t values : length (flat_map (encode t) values) = (length values * fst t)%nat.
Proof. induction values as [|v vs IH]; [reflexivity|]. cbn [flat_map length]. rewrite app_length, IH, encode_length. lia. Qed.

Lemma flat_map_nth t values : forall k v, nth_error values k = Some v ->
  firstn (fst t) (skipn (k * fst t) (flat_map (encode t) values)) = encode t v.
Proof.
  induction values as [|x vs IH]; intros k v H; [destruct k; discriminate|]. destruct k as [|k]; cbn [nth_error] in H.
  - injection H as <-. cbn [flat_map Nat.mul skipn]. rewrite firstn_app, encode_length, Nat.sub_diag.
    cbn [firstn]. rewrite app_nil_r. rewrite <- (encode_length t x) at 1. apply firstn_all.
  - cbn [flat_map]. rewrite skipn_app. rewrite skipn_all2 by (rewrite encode_length; cbn; lia). cbn [app].
    rewrite encode_length. replace (S k * fst t - fst t)%nat with (k * fst t)%nat by (cbn; lia). apply IH. exact H.
Qed.

Lemma splice_length l o b : (o + length b <= length l)%nat -> length (splice l o b) = length l.
Proof. intros H. unfold splice. rewrite !app_length, firstn_length, skipn_length. lia. Qed.
Lemma splice_read l o b : (o + length b <= length l)%nat -> firstn (length b) (skipn o (splice l o b)) = b.
Proof.
  intros H. unfold splice. rewrite skipn_app. rewrite skipn_all2 by (rewrite firstn_length; lia). cbn [app].
  rewrite firstn_length, Nat.min_l by lia. rewrite Nat.sub_diag. cbn [skipn].
  rewrite firstn_app, firstn_all, Nat.sub_diag. cbn [firstn]. apply app_nil_r.
Qed.
Lemma firstn_skipn_nth (l m : list Z) n o : (forall k, (k < n)%nat -> nth_error l (o + k) = nth_error m (o + k)) ->
  firstn n (skipn o l) = firstn n (skipn o m).
Proof.
  assert (G : forall n (l m : list Z), (forall k, (k < n)%nat -> nth_error l k = nth_error m k) -> firstn n l = firstn n m).
  { clear. induction n as [|n IH]; intros l m H; [reflexivity|].
    pose proof (H 0%nat ltac:(lia)) as H0. destruct l as [|x l], m as [|y m]; cbn in *; try discriminate; [reflexivity|].
    injection H0 as ->. f_equal. apply IH. intros k K. apply (H (S k)). lia. }
  assert (S : forall (l : list Z) k, nth_error (skipn o l) k = nth_error l (o + k)).
  { clear. induction o as [|o IH]; intros l k; [reflexivity|]. destruct l; cbn; [destruct k; reflexivity|apply IH]. }
  intros H. apply G. intros k K. rewrite !S. auto.
Qed.
Lemma splice_nth l o b k : (o + length b <= length l)%nat -> (k < o \/ o + length b <= k)%nat ->
  nth_error (splice l o b) k = nth_error l k.
Proof.
  intros H [K|K]; unfold splice.
  - rewrite nth_error_app1 by (rewrite firstn_length; lia). rewrite <- (firstn_skipn o l) at 2.
    rewrite nth_error_app1 by (rewrite firstn_length; lia). reflexivity.
  - rewrite nth_error_app2 by (rewrite firstn_length; lia). rewrite nth_error_app2 by (rewrite firstn_length; lia).
    rewrite firstn_length, Nat.min_l by lia. rewrite <- (firstn_skipn (o + length b) l) at 2.
    rewrite (nth_error_app2 (firstn _ _)) by (rewrite firstn_length; lia).
    rewrite firstn_length, Nat.min_l by lia. f_equal. lia.
Qed.

(** ** What holds of all that exists *)
Definition fits (s : state) (x : object) : Prop :=
  (exists t, element_type x = cpp t /\ (value_type x = None \/ value_type x = Some t)) /\
  exists l, bytes_of s (block x) = Some l /\ length l = (nr_rows x * nr_cols x * fst (element_type x))%nat.
Definition good (s : state) : Prop :=
  (forall o x, object_of s o = Some x -> fits s x) /\
  (forall o p x y, object_of s o = Some x -> object_of s p = Some y -> block x = block y -> o = p).

Lemma bytes_of_lt s b l : bytes_of s b = Some l -> (b < length (memory s))%nat.
Proof.
  unfold bytes_of. destruct (nth_error (memory s) b) eqn:E; [|discriminate]. intros _. apply nth_error_Some. congruence.
Qed.

Lemma object_of_app s m x o : object_of (State m (objects s ++ [Some x])) o =
  if Nat.eqb o (length (objects s)) then Some x else object_of s o.
Proof.
  unfold object_of. cbn [objects]. destruct (Nat.eqb_spec o (length (objects s))) as [->|N].
  - rewrite nth_error_app2, Nat.sub_diag by lia. reflexivity.
  - destruct (Nat.ltb_spec o (length (objects s))).
    + rewrite nth_error_app1 by lia. reflexivity.
    + rewrite (proj2 (nth_error_None _ _)) by (rewrite app_length; cbn; lia). rewrite (proj2 (nth_error_None _ _)) by lia. reflexivity.
Qed.
Lemma bytes_of_app s l o b : bytes_of (State (memory s ++ [Some l]) o) b =
  if Nat.eqb b (length (memory s)) then Some l else bytes_of s b.
Proof.
  unfold bytes_of. cbn [memory]. destruct (Nat.eqb_spec b (length (memory s))) as [->|N].
  - rewrite nth_error_app2, Nat.sub_diag by lia. reflexivity.
  - destruct (Nat.ltb_spec b (length (memory s))).
    + rewrite nth_error_app1 by lia. reflexivity.
    + rewrite (proj2 (nth_error_None _ _)) by (rewrite app_length; cbn; lia). rewrite (proj2 (nth_error_None _ _)) by lia. reflexivity.
Qed.

(** A new object with memory of its own *)
Lemma good_new s x l : good s -> block x = length (memory s) ->
  (exists t, element_type x = cpp t /\ (value_type x = None \/ value_type x = Some t)) ->
  length l = (nr_rows x * nr_cols x * fst (element_type x))%nat ->
  good (State (memory s ++ [Some l]) (objects s ++ [Some x])).
Proof.
  intros [G1 G2] B T L. split.
  - intros o y. rewrite object_of_app. destruct (Nat.eqb_spec o (length (objects s))) as [->|N].
    + intros [= <-]. split; [exact T|]. exists l. rewrite bytes_of_app, B, Nat.eqb_refl. auto.
    + intros H. destruct (G1 o y H) as [T' (l' & H' & L')]. split; [exact T'|]. exists l'. rewrite bytes_of_app.
      pose proof (bytes_of_lt _ _ _ H'). destruct (Nat.eqb_spec (block y) (length (memory s))); [lia|]. auto.
  - intros o p y z. rewrite !object_of_app.
    destruct (Nat.eqb_spec o (length (objects s))) as [->|N], (Nat.eqb_spec p (length (objects s))) as [->|M]; auto.
    + intros [= <-] H E. destruct (G1 p z H) as [_ (l' & H' & _)]. apply bytes_of_lt in H'. lia.
    + intros H [= <-] E. destruct (G1 o y H) as [_ (l' & H' & _)]. apply bytes_of_lt in H'. lia.
    + apply G2.
Qed.

Lemma cell_fits (i j rows cols w : nat) : (i < rows)%nat -> (j < cols)%nat -> ((i * cols + j) * w + w <= rows * cols * w)%nat.
Proof. intros I J. assert (i * cols + j + 1 <= rows * cols)%nat by nia. nia. Qed.
Lemma cells_apart (i j i' j' cols : nat) : (j < cols)%nat -> (j' < cols)%nat -> (i * cols + j = i' * cols + j')%nat -> i = i' /\ j = j'.
Proof.
  intros J J' E. assert (i = i').
  { assert (~ (i < i')%nat) by nia. assert (~ (i' < i)%nat) by nia. lia. }
  subst. lia.
Qed.
Lemma offsets_apart (a b w k : nat) : a <> b -> (k < w)%nat -> (b * w + k < a * w \/ a * w + w <= b * w + k)%nat.
Proof. intros N K. destruct (Nat.lt_ge_cases a b); nia. Qed.

Lemma item_spec s o i j r : item s o i j = Some r ->
  exists x l, object_of s o = Some x /\ (i < nr_rows x)%nat /\ (j < nr_cols x)%nat /\ bytes_of s (block x) = Some l /\
    r = (snd (element_type x), decode (element_type x) (firstn (fst (element_type x)) (skipn (offset x i j) l))).
Proof.
  unfold item. destruct (object_of s o) as [x|]; [|discriminate].
  destruct (Nat.ltb_spec i (nr_rows x)) as [I|I]; [|discriminate]. destruct (Nat.ltb_spec j (nr_cols x)) as [J|J]; [|discriminate].
  cbn [andb]. destruct (bytes_of s (block x)) as [l|] eqn:B; [|discriminate]. intros [= <-]. exists x, l. auto.
Qed.
Lemma item_is s o i j x l : object_of s o = Some x -> (i < nr_rows x)%nat -> (j < nr_cols x)%nat -> bytes_of s (block x) = Some l ->
  item s o i j = Some (snd (element_type x), decode (element_type x) (firstn (fst (element_type x)) (skipn (offset x i j) l))).
Proof.
  intros O I J B. unfold item. rewrite O, B. destruct (Nat.ltb_spec i (nr_rows x)); [|lia]. destruct (Nat.ltb_spec j (nr_cols x)); [|lia]. reflexivity.
Qed.

Lemma bytes_replace s b v os c : (b < length (memory s))%nat ->
  bytes_of (State (replace (memory s) b v) os) c = if Nat.eqb c b then v else bytes_of s c.
Proof.
  intros L. unfold bytes_of. cbn [memory]. destruct (Nat.eqb_spec c b) as [->|N].
  - rewrite nth_replace_same by exact L. destruct v; reflexivity.
  - rewrite nth_replace_other by congruence. reflexivity.
Qed.
Lemma object_replace s o v m p : (o < length (objects s))%nat ->
  object_of (State m (replace (objects s) o v)) p = if Nat.eqb p o then v else object_of s p.
Proof.
  intros L. unfold object_of. cbn [objects]. destruct (Nat.eqb_spec p o) as [->|N].
  - rewrite nth_replace_same by exact L. destruct v; reflexivity.
  - rewrite nth_replace_other by congruence. reflexivity.
Qed.
Lemma object_of_lt s o x : object_of s o = Some x -> (o < length (objects s))%nat.
Proof.
  unfold object_of. destruct (nth_error (objects s) o) eqn:E; [|discriminate]. intros _. apply nth_error_Some. congruence.
Qed.

(** ** Every step *)
Lemma object_typed s o x : good s -> object_of s o = Some x -> exists t, element_type x = cpp t.
Proof. intros [G _] H. destruct (G o x H) as [(t & T & _) _]. eauto. Qed.

(** What writing does *)
Lemma write_spec debug s o i j v s' x : good s -> object_of s o = Some x -> (i < nr_rows x)%nat -> (j < nr_cols x)%nat ->
  act debug (Write o i j v) s = Ok s' ->
  exists l, bytes_of s (block x) = Some l /\ length l = (nr_rows x * nr_cols x * fst (element_type x))%nat /\
    (offset x i j + fst (element_type x) <= length l)%nat /\
    s' = State (replace (memory s) (block x) (Some (splice l (offset x i j) (encode (element_type x) v)))) (objects s).
Proof.
  intros [G _] O I J. unfold act. rewrite O. destruct (G o x O) as [_ (l & B & L)]. intros A. rewrite B in A. injection A as <-.
  exists l. split; [exact B|]. split; [exact L|]. split; [|reflexivity]. rewrite L. apply cell_fits; assumption.
Qed.

Lemma array_spec debug s o s' x t : good s -> object_of s o = Some x -> value_type x = Some t -> supported t = true ->
  act debug (Array o) s = Ok s' ->
  exists l, bytes_of s (block x) = Some l /\ length l = (nr_rows x * nr_cols x * fst (element_type x))%nat /\ element_type x = cpp t /\
    s' = State (memory s ++ [Some l]) (objects s ++ [Some (Object (length (memory s)) (nr_rows x) (nr_cols x) (element_type x) None)]).
Proof.
  intros [G _] O T S. destruct (G o x O) as [(t' & E & [V|V]) (l & B & L)]; [congruence|].
  assert (t' = t) by congruence. subst t'. cbn [act]. unfold raster_as_numpy_array. rewrite O, T, S.
  unfold copy_array, wrap_array. cbn [block nr_rows nr_cols element_type]. intros A. rewrite numpy_type_spec, B, <- E, <- L, firstn_all in A.
  injection A as <-. exists l. auto.
Qed.

Lemma good_act debug a s s' : good s -> possible a s -> act debug a s = Ok s' -> good s'.
Proof.
  intros G P A. destruct a as [t rows cols values|o|o i j v|o]; cbn [possible] in P.
  - cbn [act] in A. injection A as <-. apply good_new; [exact G|reflexivity|exists t; auto|]. cbn [nr_rows nr_cols element_type].
    rewrite flat_map_length_encode. destruct P as [-> _]. reflexivity.
  - destruct P as (t & (x & O & T) & S). destruct (array_spec debug s o s' x t G O T S A) as (l & B & L & E & ->).
    apply good_new; [exact G|reflexivity|exists t; auto|exact L].
  - destruct P as (rows & cols & SH & I & J). unfold shape in SH. destruct (object_of s o) as [x|] eqn:O; [|discriminate].
    injection SH as <- <-. destruct (write_spec debug s o i j v s' x G O I J A) as (l & B & L & F & ->).
    destruct G as [G1 G2]. pose proof (bytes_of_lt _ _ _ B). split.
    + intros p y Y. change (object_of s p = Some y) in Y. destruct (G1 p y Y) as [T (m & M & LM)]. split; [exact T|].
      rewrite bytes_replace by assumption. destruct (Nat.eqb_spec (block y) (block x)) as [E|N].
      * eexists. split; [reflexivity|]. assert (p = o) by (eapply G2; eauto). subst p. assert (y = x) by congruence. subst y.
        rewrite splice_length; [exact L|]. rewrite encode_length. exact F.
      * eauto.
    + exact G2.
  - unfold act in A. destruct (object_of s o) as [x|] eqn:O; [|discriminate]. injection A as <-.
    destruct G as [G1 G2]. pose proof (object_of_lt _ _ _ O) as LO. split.
    + intros p y. rewrite object_replace by exact LO. destruct (Nat.eqb_spec p o) as [->|N]; [discriminate|]. intros Y.
      destruct (G1 p y Y) as [T (m & M & LM)]. split; [exact T|]. destruct (G1 o x O) as [_ (l & B & _)].
      rewrite bytes_replace by (eapply bytes_of_lt; exact B). destruct (Nat.eqb_spec (block y) (block x)) as [E|E]; [|eauto].
      exfalso. apply N. eapply G2; eauto.
    + intros p q y z. rewrite !object_replace by exact LO.
      destruct (Nat.eqb_spec p o); [discriminate|]. destruct (Nat.eqb_spec q o); [discriminate|]. apply G2.
Qed.

Lemma good_run debug l : forall s s', good s -> possible_all debug l s -> run debug l s = Ok s' -> good s'.
Proof.
  induction l as [|a l IH]; cbn [run possible_all]; intros s s' G P R.
  - injection R as <-. exact G.
  - destruct P as [P1 P2]. destruct (act debug a s) as [s1| | |] eqn:A; try discriminate.
    eapply IH; [|apply P2; reflexivity|exact R]. eapply good_act; eauto.
Qed.
Lemma good_start : good start.
Proof.
  assert (E : forall o, object_of start o = None) by (intros o; unfold object_of; cbn; destruct o; reflexivity).
  split; intros; rewrite E in *; discriminate.
Qed.
Lemma reachable_good debug s : reachable debug s -> good s.
Proof. intros (l & P & R). eapply good_run; [apply good_start|exact P|exact R]. Qed.

(** Possible actions are done *)
Lemma possible_done debug a s : good s -> possible a s -> exists s', act debug a s = Ok s'.
Proof.
  intros [G1 G2] P. destruct a as [t rows cols values|o|o i j v|o]; cbn [possible act] in *.
  - eauto.
  - destruct P as (t & (x & O & T) & S). unfold raster_as_numpy_array. rewrite O, T, S. unfold copy_array, wrap_array.
    cbn [block]. destruct (G1 o x O) as [_ (l & B & _)]. rewrite B. eauto.
  - destruct P as (rows & cols & SH & _). unfold shape in SH. destruct (object_of s o) as [x|] eqn:O; [|discriminate].
    destruct (G1 o x O) as [_ (l & B & _)]. rewrite B. eauto.
  - unfold shape in P. destruct (object_of s o); [eauto|congruence].
Qed.

(** What is not touched does not change *)
Lemma item_frame debug a s s' o i j : good s -> possible a s -> act debug a s = Ok s' -> ~ touches a o i j ->
  object_of s o <> None -> shape s' o = shape s o /\ item s' o i j = item s o i j.
Proof.
  intros G P A T O. destruct (object_of s o) as [x|] eqn:X; [clear O|congruence]. pose proof (object_of_lt _ _ _ X) as LO.
  destruct (proj1 G o x X) as [_ (l & B & L)]. pose proof (bytes_of_lt _ _ _ B) as LB.
  assert (NEW : forall m y, object_of (State (memory s ++ [Some m]) (objects s ++ [Some y])) o = Some x /\
                            bytes_of (State (memory s ++ [Some m]) (objects s ++ [Some y])) (block x) = Some l).
  { intros m y. rewrite object_of_app, bytes_of_app. destruct (Nat.eqb_spec o (length (objects s))); [lia|].
    destruct (Nat.eqb_spec (block x) (length (memory s))); [lia|]. auto. }
  destruct a as [t rows cols values|p|p i' j' v|p]; cbn [possible touches] in *.
  - cbn [act] in A. injection A as <-. edestruct NEW as [N1 N2]. unfold shape, item. rewrite N1, N2, X, B. auto.
  - destruct P as (t & (y & Y & T') & S). destruct (array_spec debug s p s' y t G Y T' S A) as (m & _ & _ & _ & ->).
    edestruct NEW as [N1 N2]. unfold shape, item. rewrite N1, N2, X, B. auto.
  - destruct P as (rows & cols & SH & I & J). unfold shape in SH. destruct (object_of s p) as [y|] eqn:Y; [|discriminate].
    injection SH as <- <-. destruct (write_spec debug s p i' j' v s' y G Y I J A) as (m & M & LM & F & ->).
    set (s' := State _ (objects s)). assert (X' : object_of s' o = Some x) by exact X. split; [unfold shape; rewrite X', X; reflexivity|].
    unfold item. rewrite X', X. destruct (Nat.ltb_spec i (nr_rows x)) as [I'|]; [|reflexivity]. destruct (Nat.ltb_spec j (nr_cols x)) as [J'|]; [|reflexivity].
    cbn [andb]. unfold s'. rewrite bytes_replace by (eapply bytes_of_lt; exact M). rewrite B.
    destruct (Nat.eqb_spec (block x) (block y)) as [E|E]; [|reflexivity].
    assert (o = p) by (eapply (proj2 G); eauto). subst p. assert (y = x) by congruence. subst y. assert (m = l) by congruence. subst m.
    do 3 f_equal. apply firstn_skipn_nth. intros k K. apply splice_nth.
    + rewrite encode_length. exact F.
    + rewrite encode_length. unfold offset. apply offsets_apart; [|exact K]. intros Q. apply T. split; [reflexivity|].
      apply (cells_apart i' j' i j (nr_cols x)) in Q; [tauto|exact J|exact J'].
  - unfold act in A. destruct (object_of s p) as [y|] eqn:Y; [|discriminate]. injection A as <-.
    pose proof (object_of_lt _ _ _ Y) as LP. destruct (proj1 G p y Y) as [_ (m & M & _)].
    unfold shape, item. rewrite object_replace by exact LP. destruct (Nat.eqb_spec o p) as [E|E]; [congruence|].
    rewrite X. rewrite bytes_replace by (eapply bytes_of_lt; exact M).
    destruct (Nat.eqb_spec (block x) (block y)) as [Q|Q]; [|auto]. exfalso. apply E. eapply (proj2 G); eauto.
Qed.

(** What is written is read *)
Lemma item_written debug s s' o i j v x t : good s -> object_of s o = Some x -> element_type x = cpp t -> (i < nr_rows x)%nat ->
  (j < nr_cols x)%nat -> act debug (Write o i j v) s = Ok s' -> has_value t v -> item s' o i j = Some (sort_of t, v).
Proof.
  intros G O E I J A H. destruct (write_spec debug s o i j v s' x G O I J A) as (l & B & L & F & ->).
  erewrite item_is; [|exact O|exact I|exact J|rewrite bytes_replace, Nat.eqb_refl by (eapply bytes_of_lt; exact B); reflexivity].
  rewrite <- (encode_length (element_type x) v) at 1. rewrite splice_read by (rewrite encode_length; exact F).
  rewrite E, cpp_sort, decode_encode by exact H. reflexivity.
Qed.

(** Arrays have what their rasters have *)
Lemma item_array debug s s' o t : good s -> raster_type s o t -> supported t = true -> act debug (Array o) s = Ok s' ->
  shape s' (length (objects s)) = shape s o /\ forall i j, item s' (length (objects s)) i j = item s o i j.
Proof.
  intros G (x & O & T) S A. destruct (array_spec debug s o s' x t G O T S A) as (l & B & L & E & ->).
  unfold shape, item. rewrite object_of_app, Nat.eqb_refl, O. split; [reflexivity|]. intros i j. cbn [block nr_rows nr_cols element_type].
  rewrite bytes_of_app, Nat.eqb_refl, B. reflexivity.
Qed.

(** Rasters have the values they are made of *)
Lemma item_raster debug s s' t rows cols values : length values = (rows * cols)%nat -> Forall (has_value t) values ->
  act debug (Raster t rows cols values) s = Ok s' ->
  raster_type s' (length (objects s)) t /\ shape s' (length (objects s)) = Some (rows, cols) /\
  forall i j v, (i < rows)%nat -> (j < cols)%nat -> nth_error values (i * cols + j) = Some v ->
    item s' (length (objects s)) i j = Some (sort_of t, v).
Proof.
  intros L F A. cbn [act] in A. injection A as <-. set (x := Object _ _ _ _ _). set (s' := State _ _).
  assert (O : object_of s' (length (objects s)) = Some x) by (unfold s'; rewrite object_of_app, Nat.eqb_refl; reflexivity).
  split; [exists x; auto|]. split; [unfold shape; rewrite O; reflexivity|]. intros i j v I J N.
  erewrite (item_is s' _ i j x); [|exact O|exact I|exact J|unfold s'; rewrite bytes_of_app; cbn [block x]; rewrite Nat.eqb_refl; reflexivity].
  change (element_type x) with (cpp t). unfold offset. change (element_type x) with (cpp t). change (nr_cols x) with cols.
  rewrite (flat_map_nth (cpp t) values _ v N), cpp_sort, decode_encode; [reflexivity|].
  rewrite Forall_forall in F. apply F. eapply nth_error_In. exact N.
Qed.
