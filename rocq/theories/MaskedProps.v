(** * C56: masked scalars and masked arrays *)
From Coq Require Import List Bool ZArith Arith Lia.
From Verif Require Import IntsModel MaskedModel MaskedSpec.
Import ListNotations.
Open Scope nat_scope.

Lemma put_some {A} (l : list A) : forall i x, i < length l -> exists l', put l i x = Some l' /\
  length l' = length l /\ forall j, nth_error l' j = if j =? i then Some x else nth_error l j.
Proof.
  induction l as [|y l IH]; intros [|i] x H; cbn in *; try lia.
  - eexists; split; [reflexivity|]. split; auto. intros [|j]; auto.
  - destruct (IH i x) as (l' & -> & L & N); [lia|]. eexists; split; [reflexivity|]. split; [cbn; lia|].
    intros [|j]; cbn; auto.
Qed.

Lemma put_none {A} (l : list A) : forall i x, length l <= i -> put l i x = None.
Proof.
  induction l as [|y l IH]; intros [|i] x H; cbn in *; auto; try lia. rewrite IH; auto. lia.
Qed.

(** A loop that writes at most its own element. *)
Lemma loop_elements {A} (body : nat -> list A -> option (list A)) (h : nat -> option A) n :
  forall from l, from + n <= length l ->
  (forall i l, from <= i -> i < from + n -> body i l = match h i with Some x => put l i x | None => Some l end) ->
  exists l', loop from n body l = Some l' /\ length l' = length l /\
    forall j, nth_error l' j =
      if (from <=? j) && (j <? from + n) then match h j with Some x => Some x | None => nth_error l j end
      else nth_error l j.
Proof.
  induction n as [|n IH]; intros from l H B; cbn [loop].
  - exists l. split; auto. split; auto. intros j.
    destruct (Nat.leb_spec from j), (Nat.ltb_spec j (from + 0)); cbn; auto; lia.
  - rewrite B by lia.
    assert (exists l1, match h from with Some x => put l from x | None => Some l end = Some l1 /\ length l1 = length l /\
      forall j, nth_error l1 j = if j =? from then match h j with Some x => Some x | None => nth_error l j end else nth_error l j) as (l1 & -> & L1 & N1).
    { destruct (h from) as [x|] eqn:Hf.
      - destruct (put_some l from x) as (l1 & E & L & N); [lia|]. exists l1. split; auto. split; auto.
        intros j. rewrite N. destruct (Nat.eqb_spec j from) as [->|]; auto. rewrite Hf. auto.
      - exists l. split; auto. split; auto. intros j. destruct (Nat.eqb_spec j from) as [->|]; auto. rewrite Hf. auto. }
    destruct (IH (S from) l1) as (l' & E & L & N); [lia|intros; apply B; lia|].
    exists l'. split; auto. split; [lia|]. intros j. rewrite N, N1.
    destruct (Nat.leb_spec (S from) j), (Nat.ltb_spec j (S from + n)), (Nat.leb_spec from j), (Nat.ltb_spec j (from + S n)), (Nat.eqb_spec j from);
      cbn [andb]; auto; try lia.
Qed.

Lemma list_ext {A} (l l' : list A) : (forall i, nth_error l i = nth_error l' i) -> l = l'.
Proof.
  revert l'. induction l as [|x l IH]; intros [|y l'] H; auto; try (specialize (H 0); discriminate).
  f_equal.
  - specialize (H 0). cbn in H. congruence.
  - apply IH. intros i. apply (H (S i)).
Qed.

Lemma nth_repeat {A} (x : A) n i : nth_error (repeat x n) i = if i <? n then Some x else None.
Proof.
  revert i. induction n as [|n IH]; intros [|i]; cbn; auto. rewrite IH. reflexivity.
Qed.

Lemma write_all_some {T} (v d : list T) : length v <= length d ->
  write_all v d = Some (v ++ skipn (length v) d).
Proof.
  intros H. unfold write_all.
  destruct (loop_elements (fun i d => match nth_error v i with Some x => put d i x | None => None end)
    (fun i => nth_error v i) (length v) 0 d) as (l' & E & L & N); auto.
  { intros i l _ Hi. destruct (nth_error v i) eqn:V; auto. apply nth_error_None in V. lia. }
  rewrite E. f_equal. apply list_ext. intros i. rewrite N. cbn [Nat.leb andb].
  destruct (Nat.ltb_spec i (0 + length v)).
  - rewrite nth_error_app1 by lia. destruct (nth_error v i) eqn:V; auto. apply nth_error_None in V. lia.
  - rewrite nth_error_app2 by lia. revert i H H0. clear. revert d. induction v as [|x v IH]; intros d i H H0; cbn in *.
    + rewrite Nat.sub_0_r. auto.
    + destruct d as [|y d]; [cbn in H; lia|]. destruct i as [|i]; [lia|]. cbn. apply IH; cbn in *; lia.
Qed.

Lemma loop_none {A} (body : nat -> list A -> option (list A)) n : forall from l,
  from <= length l -> length l < from + n -> (forall i l, from <= i -> i < from + n -> exists x, body i l = put l i x) ->
  loop from n body l = None.
Proof.
  induction n as [|n IH]; intros from l H H' B; cbn [loop].
  - lia.
  - destruct (B from l) as [x E]; [lia|lia|]. rewrite E. destruct (Nat.lt_ge_cases from (length l)).
    + destruct (put_some l from x) as (l1 & E1 & L1 & _); auto. rewrite E1. apply IH; [lia|lia|].
      intros i l' Hi Hi'. apply B; lia.
    + rewrite put_none; auto.
Qed.

Lemma write_all_none {T} (v d : list T) : length d < length v -> write_all v d = None.
Proof.
  intros H. apply loop_none; [lia|lia|]. intros i l _ Hi. destruct (nth_error v i) eqn:V; eauto.
  apply nth_error_None in V. lia.
Qed.

Lemma skipn_repeat_some {A} (x : A) k : forall n, skipn k (repeat x n) = repeat x (n - k).
Proof. induction k as [|k IH]; intros [|n]; cbn; auto. Qed.

Section Claims.
Context {T : Type}.
Variable dflt : T.
Variable eqv : T -> T -> bool.

Lemma filled_elements {A} sizes (v : A) i : nth_error (data (filled sizes v)) i = if i <? product sizes then Some v else None.
Proof. apply nth_repeat. Qed.

Lemma not_masked_filled (a : array T) sizes i : ~ masked {| values := a; amask := filled sizes false |} i.
Proof.
  unfold masked, element. cbn [amask]. rewrite filled_elements. destruct (i <? product sizes); discriminate.
Qed.

Lemma sound_filled {A} sizes (v : A) : sound_array (filled sizes v).
Proof. apply repeat_length. Qed.
End Claims.

(** A scalar is masked only if that was asked for; assigning a value unmasks; the value can be
    read whether or not it is masked; scalars are equal if both parts are. *)
Theorem C56_scalar (T : Type) (dflt : T) (eqv : T -> T -> bool) :
  (s_mask (scalar_default dflt) = false /\ s_value (scalar_default dflt) = dflt) /\
  (forall v : T, s_mask (scalar_of v) = false /\ s_value (scalar_of v) = v) /\
  (forall (s : scalar T) v, s_mask (scalar_assign s v) = false /\ s_value (scalar_assign s v) = v) /\
  (forall a b : scalar T, scalar_eq eqv a b = true <-> s_mask a = s_mask b /\ eqv (s_value a) (s_value b) = true).
Proof.
  split; [auto|split; [auto|split; [auto|]]]. intros a b. unfold scalar_eq.
  rewrite andb_true_iff, eqb_true_iff. tauto.
Qed.
Print Assumptions C56_scalar.

(** A new array of a given shape has the given value everywhere and nothing is masked. *)
Theorem C56_construct (T : Type) (sizes : list nat) (v : T) :
  let a := marray_filled sizes v in
  sound a /\ shape (values a) = sizes /\
  (forall i, i < product sizes -> element (values a) i v) /\ (forall i, ~ masked a i).
Proof.
  cbn zeta. split; [|split; [reflexivity|split]].
  - split; [apply sound_filled|]. split; [apply sound_filled|reflexivity].
  - intros i Hi. unfold element. cbn [values marray_filled]. rewrite filled_elements. apply Nat.ltb_lt in Hi. rewrite Hi. auto.
  - intros i. apply not_masked_filled.
Qed.
Print Assumptions C56_construct.

(** An array made of a list of values has these, unmasked. *)
Theorem C56_construct_list (T : Type) (dflt : T) (l : list T) :
  exists a, marray_of_list dflt l = Some a /\ sound a /\
    data (values a) = l /\ shape (values a) = [length l] /\ (forall i, ~ masked a i).
Proof.
  unfold marray_of_list, array_of_list. rewrite write_all_some by (rewrite repeat_length; auto).
  eexists; split; [reflexivity|]. rewrite skipn_all2 by (rewrite repeat_length; auto). rewrite app_nil_r.
  split; [|split; [reflexivity|split; [reflexivity|intros i; apply not_masked_filled]]].
  split; [|split; [apply sound_filled|reflexivity]]. unfold sound_array. cbn. lia.
Qed.
Print Assumptions C56_construct_list.

(** An array made of rows of values: if all rows are equally long, element [k] of row [r] is
    at row [r] and column [k]. *)
Theorem C56_construct_rows (T : Type) (dflt : T) (rows : list (list T)) (columns : nat) :
  rows <> [] -> Forall (fun row => length row = columns) rows ->
  exists a, marray_of_rows dflt rows = Some a /\ sound a /\
    shape (values a) = [length rows; columns] /\ (forall i, ~ masked a i) /\
    forall r k row v, nth_error rows r = Some row -> nth_error row k = Some v ->
      element (values a) (r * columns + k) v.
Proof.
  intros N F. destruct rows as [|row0 rows0]; [congruence|]. set (rows := row0 :: rows0) in *.
  assert (H0 : length row0 = columns) by (inversion F; auto).
  assert (HL : length (concat rows) = length rows * columns).
  { clear N. clearbody rows. induction F; cbn; auto. rewrite app_length. lia. }
  unfold marray_of_rows, array_of_rows. subst rows. cbn iota. set (rows := row0 :: rows0) in *.
  assert (HP : product [length rows; length row0] = length rows * columns) by (cbn [product fold_right]; rewrite H0; lia).
  rewrite write_all_some by (rewrite repeat_length, HL, HP; auto).
  rewrite skipn_all2, app_nil_r by (rewrite repeat_length, HL, HP; auto).
  eexists; split; [reflexivity|]. split; [|split; [cbn [values shape]; rewrite H0; auto|split; [intros i; apply not_masked_filled|]]].
  - split; [|split; [apply sound_filled|reflexivity]]. unfold sound_array. cbn [values data shape]. rewrite HL, HP. auto.
  - intros r k row v Hr Hk. unfold element. cbn [values data].
    clear N H0 HL HP. clearbody rows. clear rows0 row0. revert r Hr. induction F as [|row1 rows H1 F IH]; intros [|r] Hr; cbn in Hr; try discriminate.
    + injection Hr as ->. cbn. rewrite nth_error_app1; auto. apply nth_error_Some. congruence.
    + cbn [concat]. rewrite nth_error_app2 by lia. rewrite H1.
      replace (S r * columns + k - columns) with (r * columns + k) by lia. auto.
Qed.
Print Assumptions C56_construct_rows.

(** The lengths of the rows are not checked.  Without rows, or with more values than the first
    row promises, the constructor accesses memory outside of the array; otherwise the values of
    all rows follow each other, whatever the lengths of the rows. *)
Theorem C56_construct_ragged (T : Type) (dflt : T) (rows : list (list T)) :
  (marray_of_rows dflt rows = None <->
     rows = [] \/ length rows * length (hd [] rows) < length (concat rows)) /\
  (forall a, marray_of_rows dflt rows = Some a ->
     data (values a) =
       concat rows ++ repeat dflt (length rows * length (hd [] rows) - length (concat rows))).
Proof.
  unfold marray_of_rows, array_of_rows. destruct rows as [|row rows]; [split; [tauto|discriminate]|].
  set (all := row :: rows). assert (HP : product [length all; length row] = length all * length row) by (cbn [product fold_right]; lia).
  replace (hd [] all) with row by reflexivity. rewrite HP.
  destruct (Nat.lt_ge_cases (length all * length row) (length (concat all))) as [H|H].
  - rewrite write_all_none by (rewrite repeat_length; auto). split; [|discriminate]. tauto.
  - rewrite write_all_some by (rewrite repeat_length; auto). split.
    + split; [discriminate|]. intros [X|X]; [discriminate|lia].
    + intros a E. injection E as <-. cbn [values data]. f_equal. apply skipn_repeat_some.
Qed.
Print Assumptions C56_construct_ragged.

(** An array made of masked scalars has their values and their masks. *)
Theorem C56_construct_scalars (T : Type) (dflt : T) (l : list (scalar T)) :
  exists a, marray_of_scalars dflt l = Some a /\ sound a /\
    data (values a) = map s_value l /\ data (amask a) = map s_mask l.
Proof.
  unfold marray_of_scalars.
  set (body := fun i dm => _).
  assert (G : forall n from d m, from + n = length l -> length d = length l -> length m = length l ->
    loop from n body (d, m) = Some (firstn from d ++ map s_value (skipn from l), firstn from m ++ map s_mask (skipn from l))).
  { induction n as [|n IH]; intros from d m H Hd Hm; cbn [loop].
    - rewrite skipn_all2 by lia. cbn. rewrite !firstn_all2, !app_nil_r by lia. auto.
    - unfold body at 1. cbn [fst snd]. destruct (nth_error l from) as [s|] eqn:E; [|apply nth_error_None in E; lia].
      destruct (put_some d from (s_value s)) as (d' & -> & Ld & Nd); [lia|].
      destruct (put_some m from (s_mask s)) as (m' & -> & Lm & Nm); [lia|].
      rewrite IH by lia.
      assert (P : forall A (p : scalar T -> A) (x x' : list A), from < length x -> length x' = length x ->
        (forall j, nth_error x' j = if j =? from then Some (p s) else nth_error x j) ->
        firstn (S from) x' ++ map p (skipn (S from) l) = firstn from x ++ map p (skipn from l)).
      { intros A p x x' Hx Lx Nx.
        assert (skipn from l = s :: skipn (S from) l) as ->.
        { clear -E. revert l E. induction from as [|k IH]; intros [|y l] E; cbn in *; try discriminate; [congruence|]. apply IH; auto. }
        cbn [map]. change (p s :: map p (skipn (S from) l)) with ([p s] ++ map p (skipn (S from) l)). rewrite app_assoc. f_equal.
        clear -Hx Lx Nx. revert x x' Hx Lx Nx. induction from as [|k IH]; intros [|y x] [|y' x'] Hx Lx Nx; cbn in Hx, Lx; try lia.
        - cbn. specialize (Nx 0). cbn in Nx. congruence.
        - cbn [firstn app]. f_equal; [specialize (Nx 0); cbn in Nx; congruence|].
          apply IH; [lia|lia|]. intros j. specialize (Nx (S j)). cbn in Nx. auto. }
      f_equal. f_equal; apply P; auto; lia. }
  rewrite G by (cbn [data filled]; rewrite ?repeat_length; cbn; lia). cbn [firstn skipn app].
  eexists; split; [reflexivity|]. split; [|split; reflexivity].
  split; [|split]; [unfold sound_array; cbn; rewrite map_length; lia|unfold sound_array; cbn; rewrite map_length; lia|reflexivity].
Qed.
Print Assumptions C56_construct_scalars.

(** [has_masked_values] tells whether an element is masked. *)
Theorem C56_has_masked_values (T : Type) (a : marray T) :
  sound a -> exists b, has_masked_values a = Some b /\ (b = true <-> exists i, masked a i).
Proof.
  intros (S1 & S2 & S3). unfold has_masked_values, masked, element.
  assert (L : length (data (amask a)) = num_elements (values a)) by (unfold num_elements; rewrite <- S3; auto).
  set (body := fun i (result : bool) => _). set (m := data (amask a)) in *.
  assert (G : forall n from r, from + n = length m ->
    exists b, loop from n body r = Some b /\ (b = true <-> r = true \/ exists i, from <= i /\ nth_error m i = Some true)).
  { induction n as [|n IH]; intros from r H; cbn [loop].
    - exists r. split; auto. split; auto. intros [X|(i & Hi & X)]; auto.
      assert (i < length m) by (apply nth_error_Some; congruence). lia.
    - unfold body at 1. destruct r.
      + destruct (IH (S from) true) as (b & E & Hb); [lia|]. exists b. split; auto. tauto.
      + destruct (nth_error m from) as [x|] eqn:E; [|apply nth_error_None in E; lia].
        destruct x.
        * destruct (IH (S from) true) as (b & Eb & Hb); [lia|]. exists b. split; auto.
          split; [intros _; right; exists from; auto|tauto].
        * destruct (IH (S from) false) as (b & Eb & Hb); [lia|]. exists b. split; auto. rewrite Hb.
          split; (intros [X|(i & Hi & X)]; [auto|right; exists i; split; auto]); [lia|].
          destruct (Nat.eq_dec i from) as [->|]; [congruence|lia]. }
  destruct (G (num_elements (values a)) 0 false) as (b & E & Hb); [lia|]. exists b. split; auto.
  rewrite Hb. split; [intros [X|(i & _ & X)]; [discriminate|eauto]|intros (i & X); right; exists i; split; auto; lia].
Qed.
Print Assumptions C56_has_masked_values.

(** A call that changes the mask masks exactly the elements it selects, unmasks none and leaves
    the values as they are. *)
Lemma one_call {T} (eqv : T -> T -> bool) (a : marray T) (c : masking T) :
  sound a -> acceptable a c ->
  exists a', apply eqv a c = Some a' /\ sound a' /\ same_values a' a /\
    forall i, masked a' i <-> masked a i \/ selects eqv a c i.
Proof.
  intros (S1 & S2 & S3) A.
  assert (L : length (data (amask a)) = num_elements (values a)) by (unfold num_elements; rewrite <- S3; auto).
  assert (K : forall body h, 
    (forall i l, 0 <= i -> i < 0 + num_elements (values a) -> body i l = match h i with Some x => put l i x | None => Some l end) ->
    (forall i, i < num_elements (values a) -> (h i = Some true /\ selects eqv a c i) \/ (h i = None /\ ~ selects eqv a c i)) ->
    (forall i, selects eqv a c i -> i < num_elements (values a)) ->
    exists a', with_mask a (loop 0 (num_elements (values a)) body (data (amask a))) = Some a' /\ sound a' /\ same_values a' a /\
      forall i, masked a' i <-> masked a i \/ selects eqv a c i).
  { intros body h B Hs Hb. destruct (loop_elements body h (num_elements (values a)) 0 (data (amask a))) as (m & E & Lm & N); [lia|auto|].
    rewrite E. cbn [with_mask]. eexists; split; [reflexivity|]. split; [|split; [split; reflexivity|]].
    - split; auto. split; auto. unfold sound_array. cbn [amask data shape]. rewrite Lm. auto.
    - intros i. unfold masked, element. cbn [amask data]. rewrite N. cbn [Nat.leb andb].
      destruct (Nat.ltb_spec i (0 + num_elements (values a))).
      + destruct (Hs i) as [[-> X]|[-> X]]; tauto.
      + split; auto. intros [X|X]; auto. apply Hb in X. lia. }
  destruct c as [v|m v|]; cbn [apply acceptable selects] in *.
  - unfold set_mask_value. apply K with (h := fun i => match nth_error (data (values a)) i with Some x => if eqv x v then Some true else None | None => None end).
    + intros i l _ Hi. destruct (nth_error (data (values a)) i) eqn:E; [destruct (eqv t v); auto|].
      apply nth_error_None in E. unfold sound_array in S1. unfold num_elements in Hi. lia.
    + intros i Hi. unfold element. destruct (nth_error (data (values a)) i) as [x|] eqn:E.
      * destruct (eqv x v) eqn:X; [left; eauto|]. right. split; auto. intros (y & [= <-] & Y). congruence.
      * right. split; auto. intros (y & Y & _). congruence.
    + intros i (x & X & _). unfold element in X. unfold num_elements. rewrite <- S1. apply nth_error_Some. congruence.
  - destruct A as [A1 A2]. unfold set_mask_array. rewrite (proj2 (Nat.eqb_eq _ _) A2).
    apply K with (h := fun i => match nth_error (data m) i with Some x => if Z.eqb x v then Some true else None | None => None end).
    + intros i l _ Hi. destruct (nth_error (data m) i) eqn:E; [destruct (Z.eqb z v); auto|].
      apply nth_error_None in E. unfold sound_array in A1. unfold num_elements in *. lia.
    + intros i Hi. unfold element. destruct (nth_error (data m) i) as [x|] eqn:E.
      * destruct (Z.eqb_spec x v) as [->|X]; [auto|]. right. split; auto. congruence.
      * right. split; auto. discriminate.
    + intros i X. unfold element in X. rewrite <- A2. unfold num_elements. rewrite <- A1. apply nth_error_Some. congruence.
  - eexists; split; [reflexivity|]. unfold mask_all, masked, element. cbn [amask data].
    assert (num_elements (amask a) = num_elements (values a)) as E by (unfold num_elements; rewrite S3; auto).
    split; [|split; [split; reflexivity|]].
    + split; auto. split; auto. unfold sound_array. cbn [amask data shape]. rewrite repeat_length. auto.
    + intros i. rewrite nth_repeat, E. destruct (Nat.ltb_spec i (num_elements (values a))); [tauto|].
      split; [discriminate|]. intros [X|X]; [|lia]. exfalso.
      assert (i < length (data (amask a))) by (apply nth_error_Some; congruence). lia.
Qed.

Theorem C56_masking (T : Type) (eqv : T -> T -> bool) (a : marray T) (cs : list (masking T)) :
  sound a -> Forall (acceptable a) cs ->
  exists a', apply_all eqv a cs = Some a' /\ sound a' /\ same_values a' a /\
    forall i, masked a' i <-> masked a i \/ exists c, In c cs /\ selects eqv a c i.
Proof.
  revert a. induction cs as [|c cs IH]; intros a S F.
  - exists a. split; [reflexivity|]. split; auto. split; [split; auto|].
    intros i. split; auto. intros [X|(c & [] & _)]; auto.
  - inversion F as [|? ? A F']; subst. destruct (one_call eqv a c S A) as (a1 & E1 & S1 & [V1 V1'] & M1).
    cbn [apply_all]. rewrite E1.
    assert (Q : forall c i, selects eqv a1 c i <-> selects eqv a c i) by (intros [v|m v|] i; cbn [selects]; rewrite ?V1; tauto).
    destruct (IH a1 S1) as (a2 & E2 & S2 & [V2 V2'] & M2).
    { eapply Forall_impl; [|exact F']. intros [v|m v|]; cbn; rewrite ?V1; auto. }
    exists a2. split; auto. split; auto. split; [split; congruence|].
    intros i. rewrite M2, M1. split.
    + intros [[X|X]|(c' & I & X)]; auto; right; [exists c|exists c'; rewrite <- Q]; cbn; auto.
    + intros [X|(c' & [<-|I] & X)]; auto. right. exists c'. rewrite Q. auto.
Qed.
Print Assumptions C56_masking.

(** A mask of another size is rejected by an assertion. *)
Theorem C56_mask_size (T : Type) (a : marray T) (u : mty) (m : array Z) (v : Z) :
  num_elements m <> num_elements (values a) ->
  set_mask_array a m v = None /\ export_mask u a m = None.
Proof.
  intros H. unfold set_mask_array, export_mask. rewrite (proj2 (Nat.eqb_neq _ _) H). auto.
Qed.
Print Assumptions C56_mask_size.

(** Exporting the mask gives zero for the masked elements and something else for the others,
    for all types of the exported mask. *)
Theorem C56_export (T : Type) (u : mty) (a : marray T) (m : array Z) :
  sound a -> sound_array m -> num_elements m = num_elements (values a) ->
  exists m', export_mask u a m = Some m' /\ shape m' = shape m /\ sound_array m' /\
    forall i, i < num_elements m ->
      (masked a i -> element m' i 0%Z) /\
      (~ masked a i -> exists v, v <> 0%Z /\ element m' i v).
Proof.
  intros (S1 & S2 & S3) Sm E. unfold export_mask. rewrite (proj2 (Nat.eqb_eq _ _) E).
  assert (L : length (data (amask a)) = num_elements (values a)) by (unfold num_elements; rewrite <- S3; auto).
  set (n0 := mconv u 0). set (n1 := mconv u 255).
  destruct (loop_elements (fun i d => match nth_error (data (amask a)) i with Some b => put d i (if b then n0 else n1) | None => None end)
    (fun i => match nth_error (data (amask a)) i with Some b => Some (if b then n0 else n1) | None => None end)
    (num_elements (values a)) 0 (data m)) as (d & -> & Ld & N).
  { unfold sound_array in Sm. unfold num_elements in *. lia. }
  { intros i l _ Hi. destruct (nth_error (data (amask a)) i) eqn:X; auto. apply nth_error_None in X. lia. }
  eexists; split; [reflexivity|]. split; [reflexivity|]. split; [unfold sound_array; cbn [data shape]; rewrite Ld; auto|].
  intros i Hi. unfold masked, element. cbn [data]. rewrite N. cbn [Nat.leb andb].
  rewrite (proj2 (Nat.ltb_lt _ _)) by (cbn; lia).
  destruct (nth_error (data (amask a)) i) as [b|] eqn:X; [|apply nth_error_None in X; lia].
  destruct b; split; intros Y; try congruence.
  - f_equal. subst n0. destruct u as [|[]]; reflexivity.
  - exists n1. split; auto. subst n1. destruct u as [|[]]; vm_compute; discriminate.
Qed.
Print Assumptions C56_export.

(** Importing an exported mask into an array in which nothing is masked gives the same mask,
    whatever the type of the exported mask. *)
Theorem C56_round_trip (S T : Type) (u : mty) (a : marray S) (m : array Z) (b : marray T) :
  sound a -> sound b -> sound_array m ->
  num_elements m = num_elements (values a) -> num_elements (values b) = num_elements (values a) ->
  (forall i, ~ masked b i) ->
  exists m' b', export_mask u a m = Some m' /\ set_mask_array b m' 0%Z = Some b' /\
    forall i, masked b' i <-> masked a i.
Proof.
  intros Sa Sb Sm Ea Eb N. destruct (C56_export S u a m Sa Sm Ea) as (m' & E & Sh & Sm' & H).
  assert (Em : num_elements m' = num_elements m) by (unfold num_elements; rewrite Sh; auto).
  destruct (one_call (fun _ _ => true) b (SetMaskArray m' 0%Z) Sb) as (b' & E' & _ & _ & M).
  { cbn. split; auto. lia. }
  exists m', b'. split; auto. split; auto. intros i. rewrite M. cbn [selects].
  assert (La : length (data (amask a)) = num_elements (values a)) by (destruct Sa as (_ & Sa & Sa'); unfold num_elements; rewrite <- Sa'; auto).
  destruct (Nat.lt_ge_cases i (num_elements m)) as [Hi|Hi].
  - destruct (H i Hi) as [H1 H2]. split; [|intros X; right; auto].
    intros [X|X]; [exfalso; eapply N; eauto|].
    assert (D : masked a i \/ ~ masked a i).
    { unfold masked, element. destruct (nth_error (data (amask a)) i) as [[]|]; auto; right; discriminate. }
    destruct D as [D|D]; auto. destruct (H2 D) as (v & V & X'). unfold element in *. congruence.
  - split.
    + intros [X|X]; [exfalso; eapply N; eauto|]. exfalso. unfold element in X.
      assert (i < length (data m')) by (apply nth_error_Some; congruence). unfold sound_array in Sm'. unfold num_elements in *. lia.
    + intros X. exfalso. unfold masked, element in X. assert (i < length (data (amask a))) by (apply nth_error_Some; congruence). lia.
Qed.
Print Assumptions C56_round_trip.

(** A 2 by 3 array. *)
Definition example_rows : list (list Z) := [[1; 2; 3]; [4; 5; 2]]%Z.
Example C56_case :
  exists a, marray_of_rows 0%Z example_rows = Some a /\ sound a /\
    option_map (fun a' => data (amask a'))
      (apply_all Z.eqb a [SetMaskValue 2%Z; SetMaskArray (filled [2; 3] 7%Z) 0%Z; SetMaskValue 9%Z]) =
    Some [false; true; false; false; false; true] /\
    option_map data (export_mask (MInt S8) (mask_all a) (filled [2; 3] 7%Z)) = Some [0; 0; 0; 0; 0; 0]%Z /\
    option_map data (export_mask (MInt S8) a (filled [2; 3] 7%Z)) = Some [-1; -1; -1; -1; -1; -1]%Z.
Proof. eexists. repeat split. Qed.
Example C56_case_ragged :
  option_map (fun a => data (values a)) (marray_of_rows 0%Z [[1; 2]; [3]; [4; 5]]%Z) = Some [1; 2; 3; 4; 5; 0]%Z /\
  marray_of_rows 0%Z [[1]; [2; 3]]%Z = None.
Proof. split; reflexivity. Qed.
