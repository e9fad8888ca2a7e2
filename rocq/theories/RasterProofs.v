(** * Proofs about rasters of the Python extension: heaps, loops *)
From Coq Require Import ZArith List Bool SpecFloat Lia.
From Verif Require Import IntsModel ArithModel FloatModel IeeeSpec FloatSpec RasterModel RasterSpec.
Import ListNotations.
Open Scope Z_scope.

(** ** Lists *)
Lemma replace_length {A} (l : list A) i a : length (replace l i a) = length l.
Proof. revert i. induction l as [|x l IH]; intros [|i]; cbn; auto. Qed.
Lemma nth_replace_same {A} (l : list A) i a : (i < length l)%nat -> nth_error (replace l i a) i = Some a.
Proof. revert i. induction l as [|x l IH]; intros [|i] H; cbn in *; try lia; auto. apply IH. lia. Qed.
Lemma nth_replace_other {A} (l : list A) i j a : i <> j -> nth_error (replace l i a) j = nth_error l j.
Proof. revert i j. induction l as [|x l IH]; intros [|i] [|j] H; cbn; try congruence; auto. Qed.
Lemma replace_twice {A} (l : list A) i a b : replace (replace l i a) i b = replace l i b.
Proof. revert i. induction l as [|x l IH]; intros [|i]; cbn; f_equal; auto. Qed.
Lemma replace_id {A} (l : list A) i a : nth_error l i = Some a -> replace l i a = l.
Proof. revert i. induction l as [|x l IH]; intros [|i] H; cbn in *; try congruence. f_equal. auto. Qed.
Lemma replace_middle {A} (l1 l2 : list A) i x a : length l1 = i -> replace (l1 ++ x :: l2) i a = l1 ++ a :: l2.
Proof. revert i. induction l1 as [|y l1 IH]; intros i H; cbn in *; subst; cbn; auto. f_equal. auto. Qed.

Lemma map_seq_shift n k : map (fun j => (k + j)%nat) (seq 0 n) = seq k n.
Proof.
  assert (G : forall n k s, map (fun j => (k + j)%nat) (seq s n) = seq (k + s) n).
  { clear. induction n; intros k s; cbn; f_equal. rewrite IHn. f_equal. lia. }
  rewrite G. f_equal. lia.
Qed.
Lemma indices_seq nr nc : indices nr nc = seq 0 (nr * nc).
Proof.
  unfold indices.
  assert (G : forall nr s, flat_map (fun i => map (fun j => (i * nc + j)%nat) (seq 0 nc)) (seq s nr) = seq (s * nc) (nr * nc)).
  { clear nr. induction nr; intros s; cbn [seq flat_map]; [reflexivity|]. rewrite IHnr, map_seq_shift. cbn [Nat.mul].
    rewrite seq_app. f_equal. f_equal. lia. }
  apply (G nr 0%nat).
Qed.

Section Program.
Variables debug wrapv : bool.

(** ** Writing to one raster *)
Section Dst.
Variables (h0 : heap) (dst : nat) (rd : raster) (l0 : list (option num)) (nd : num).
Hypothesis Hd : nth_error h0 dst = Some rd.
Hypothesis Hl : data rd = Some l0.
Hypothesis Hn : no_data_value (value_type rd) = Some nd.

Definition with_data (l : list (option num)) : raster :=
  Raster (value_type rd) (rows rd) (cols rd) (origin rd) (cell_sizes rd) (Some l).
Definition upd (l : list (option num)) : heap := replace h0 dst (with_data l).

Lemma dst_lt : (dst < length h0)%nat.
Proof. apply nth_error_Some. congruence. Qed.
Lemma upd_start : upd l0 = h0.
Proof. apply replace_id. rewrite Hd. f_equal. unfold with_data. rewrite <- Hl. destruct rd; reflexivity. Qed.
Lemma upd_dst l : nth_error (upd l) dst = Some (with_data l).
Proof. apply nth_replace_same, dst_lt. Qed.
Lemma upd_other l a : a <> dst -> nth_error (upd l) a = nth_error h0 a.
Proof. intros H. apply nth_replace_other. congruence. Qed.
Lemma upd_length l : length (upd l) = length h0.
Proof. apply replace_length. Qed.

Lemma get_dst l i n : nth_error l i = Some (Some n) -> get debug (upd l) dst i = Done n.
Proof. intros H. unfold get. rewrite upd_dst. cbn [data with_data]. rewrite H. reflexivity. Qed.
Lemma get_other l a i : a <> dst -> get debug (upd l) a i = get debug h0 a i.
Proof. intros H. unfold get. rewrite upd_other by auto. reflexivity. Qed.
Lemma put_dst l i n : (i < length l)%nat -> put debug (upd l) dst i n = Done (upd (replace l i (Some n))).
Proof.
  intros H. unfold put. rewrite upd_dst. cbn [data with_data]. rewrite (proj2 (Nat.ltb_lt _ _) H).
  unfold upd. rewrite replace_twice. reflexivity.
Qed.
Lemma mark_dst l i : (i < length l)%nat -> mark debug (upd l) dst i = Done (upd (replace l i (Some nd))).
Proof. intros H. unfold mark. rewrite upd_dst. cbn [value_type with_data]. rewrite Hn. apply put_dst; auto. Qed.

(** The elements are calculated one by one; [F] tells what they become, if they become something. *)
Variable step : nat -> heap -> outcome heap.
Variable F : nat -> option num.
Hypothesis Step : forall i l, (i < length l0)%nat -> length l = length l0 -> nth_error l i = nth_error l0 i ->
  step i (upd l) = match F i with Some f => Done (upd (replace l i (Some f))) | None => Undefined end.

Lemma loop_run k l : (k <= length l0)%nat -> length l = k ->
  loop step (seq k (length l0 - k)) (upd (l ++ skipn k l0)) =
  (if forallb (fun i => match F i with Some _ => true | None => false end) (seq k (length l0 - k))
   then Done (upd (l ++ map F (seq k (length l0 - k)))) else Undefined).
Proof.
  intros H Hk. remember (length l0 - k)%nat as m eqn:Em. revert k l H Hk Em. induction m as [|m IH]; intros k l H Hk Em.
  - cbn. rewrite skipn_all2 by lia. reflexivity.
  - cbn [seq loop]. assert (Hs : exists x, nth_error l0 k = Some x).
    { destruct (nth_error l0 k) eqn:E; eauto. apply nth_error_None in E. lia. }
    destruct Hs as [x Hx].
    assert (Sk : skipn k l0 = x :: skipn (S k) l0).
    { clear - Hx. revert k Hx. induction l0 as [|y l IHl]; intros [|k] Hx; cbn in *; try congruence; auto. }
    rewrite Sk. rewrite Step; try lia.
    2:{ rewrite app_length. cbn. assert (length (skipn k l0) = length l0 - k)%nat by apply skipn_length. rewrite Sk in H0. cbn in H0. lia. }
    2:{ rewrite nth_error_app2 by lia. replace (k - length l)%nat with 0%nat by lia. cbn. auto. }
    cbn [forallb map]. destruct (F k) as [f|] eqn:EF; cbn [bind andb]; [|reflexivity].
    rewrite replace_middle by auto. replace (l ++ Some f :: skipn (S k) l0) with ((l ++ [Some f]) ++ skipn (S k) l0) by (rewrite <- app_assoc; reflexivity).
    rewrite IH; try lia; [|rewrite app_length; cbn; lia].
    rewrite <- app_assoc. cbn. reflexivity.
Qed.

Lemma loop_all : loop step (seq 0 (length l0)) h0 =
  (if forallb (fun i => match F i with Some _ => true | None => false end) (seq 0 (length l0))
   then Done (upd (map F (seq 0 (length l0)))) else Undefined).
Proof.
  generalize (loop_run 0 [] ltac:(lia) eq_refl). cbn [app skipn]. rewrite Nat.sub_0_r, upd_start. auto.
Qed.
End Dst.

(** ** Elements *)
Definition is_ref (o : operand) : bool := match o with Ref _ => true | Number _ => false end.
(** What an element becomes *)
Definition becomes (alg : num -> num -> option num) (rng : num -> num -> num -> option bool) (p1 p2 : bool) (nd : num)
    (again1 again2 : num -> num) (v1 v2 : num) : option num :=
  if p1 && is_no_data v1 || p2 && is_no_data v2 then Some nd else
  match alg v1 v2 with
  | None => None
  | Some r =>
      match rng (again1 r) (again2 r) r with
      | None => None
      | Some b => Some (if b then r else nd)
      end
  end.

Section Cells.
Variables (h0 : heap) (dst : nat) (rd : raster) (l0 : list (option num)) (nd : num).
Hypothesis Hd : nth_error h0 dst = Some rd.
Hypothesis Hl : data rd = Some l0.
Hypothesis Hn : no_data_value (value_type rd) = Some nd.
Local Notation upd := (upd h0 dst rd).

(** The operand reads [v] at [i], and after [r] has been written there, [again r]. *)
Definition reads (o : operand) (i : nat) (v : num) (again : num -> num) : Prop :=
  match o with
  | Number n => n = v /\ forall r, again r = v
  | Ref a =>
      if Nat.eqb a dst then nth_error l0 i = Some (Some v) /\ forall r, again r = r
      else get debug h0 a i = Done v /\ forall r, again r = v
  end.

Lemma fetch_before o i v again l : reads o i v again -> nth_error l i = nth_error l0 i ->
  fetch debug (upd l) o i = Done v /\ detect debug (upd l) o i = Done (is_ref o && is_no_data v).
Proof.
  intros R E. destruct o as [a|n]; cbn [fetch detect is_ref]; cbn [reads] in R.
  - destruct (Nat.eqb_spec a dst) as [->|N].
    + destruct R as [R _]. rewrite (get_dst h0 dst rd Hd l i v) by congruence. split; reflexivity.
    + destruct R as [R _]. rewrite get_other by auto. rewrite R. split; reflexivity.
  - destruct R as [-> _]. split; reflexivity.
Qed.
Lemma fetch_after o i v again l r : reads o i v again -> (i < length l)%nat ->
  fetch debug (upd (replace l i (Some r))) o i = Done (again r).
Proof.
  intros R L. destruct o as [a|n]; cbn [fetch]; cbn [reads] in R.
  - destruct (Nat.eqb_spec a dst) as [->|N]; destruct R as [R A]; rewrite A.
    + apply get_dst; auto. apply nth_replace_same; auto.
    + rewrite get_other by auto. auto.
  - destruct R as [-> A]. rewrite A. reflexivity.
Qed.

Lemma binary_step alg rng o1 o2 i l v1 v2 again1 again2 : (i < length l0)%nat -> length l = length l0 ->
  nth_error l i = nth_error l0 i -> reads o1 i v1 again1 -> reads o2 i v2 again2 ->
  binary_cell debug alg rng o1 o2 dst i (upd l) =
  match becomes alg rng (is_ref o1) (is_ref o2) nd again1 again2 v1 v2 with
  | Some f => Done (upd (replace l i (Some f)))
  | None => Undefined
  end.
Proof.
  intros Hi Len E R1 R2. unfold binary_cell, becomes.
  destruct (fetch_before o1 i v1 again1 l R1 E) as [F1 D1]. destruct (fetch_before o2 i v2 again2 l R2 E) as [F2 D2].
  rewrite D1. cbn [bind]. destruct (is_ref o1 && is_no_data v1); cbn [orb]; [apply mark_dst; auto; lia|].
  rewrite D2. cbn [bind]. destruct (is_ref o2 && is_no_data v2); [apply mark_dst; auto; lia|].
  rewrite F1, F2. cbn [bind]. destruct (alg v1 v2) as [r|]; [|reflexivity].
  rewrite put_dst by (auto; lia). cbn [bind].
  rewrite (fetch_after o1 i v1 again1), (fetch_after o2 i v2 again2) by (auto; lia). cbn [bind].
  rewrite (get_dst h0 dst rd Hd _ i r) by (apply nth_replace_same; lia). cbn [bind].
  destruct (rng (again1 r) (again2 r) r) as [[]|]; try reflexivity.
  rewrite mark_dst with (nd := nd) by (auto; rewrite replace_length; lia). rewrite replace_twice. reflexivity.
Qed.

(** What the choice of a condition [c] becomes *)
Definition becomes_choice (p1 p2 : bool) (c v1 v2 : num) : num :=
  if is_no_data c then nd
  else if truth c then (if p1 && is_no_data v1 then nd else v1)
  else (if p2 && is_no_data v2 then nd else v2).
Lemma choose_step o i l v again : (i < length l)%nat -> nth_error l i = nth_error l0 i -> reads o i v again ->
  choose debug (upd l) o dst i = Done (upd (replace l i (Some (if is_ref o && is_no_data v then nd else v)))).
Proof.
  intros Hi E R. unfold choose. destruct (fetch_before o i v again l R E) as [F D]. rewrite D. cbn [bind].
  destruct (is_ref o && is_no_data v); [apply mark_dst; auto|]. rewrite F. cbn [bind]. apply put_dst; auto.
Qed.
Lemma if_step c o1 o2 i l vc v1 v2 again1 again2 : c <> dst -> (i < length l0)%nat -> length l = length l0 ->
  nth_error l i = nth_error l0 i -> get debug h0 c i = Done vc -> reads o1 i v1 again1 -> reads o2 i v2 again2 ->
  if_cell debug c o1 o2 dst i (upd l) = Done (upd (replace l i (Some (becomes_choice (is_ref o1) (is_ref o2) vc v1 v2)))).
Proof.
  intros Nc Hi Len E Rc R1 R2. unfold if_cell, becomes_choice.
  assert (Rc' : reads (Ref c) i vc (fun _ => vc)).
  { cbn [reads]. destruct (Nat.eqb_spec c dst); [contradiction|]. auto. }
  destruct (fetch_before (Ref c) i vc _ l Rc' E) as [F D]. rewrite D. cbn [is_ref andb bind fetch] in *.
  destruct (is_no_data vc); [apply mark_dst; auto; lia|]. rewrite F. cbn [bind].
  destruct (truth vc); eapply choose_step; eauto; lia.
Qed.
End Cells.
End Program.

(** ** Rasters *)
Lemma proper_get debug h a r i : holds h a r -> (i < size r)%nat ->
  exists n, get debug h a i = Done n /\ vty_of n = value_type r /\ argument n /\
    exists l, data r = Some l /\ length l = size r /\ nth_error l i = Some (Some n).
Proof.
  intros [H (_ & l & D & L & P)] Hi. destruct (P i Hi) as (n & N & T & A). exists n. unfold get. rewrite H, D, N. eauto 8.
Qed.
Lemma reading_at r l i n : data r = Some l -> nth_error l i = Some (Some n) -> reading r i = kept n.
Proof. intros D N. unfold reading. rewrite D, N. reflexivity. Qed.
Lemma raster_type_supported t : raster_type t <-> supported t = true.
Proof.
  unfold raster_type. split.
  - intros H. repeat (destruct H as [<-|H]; [reflexivity|]). destruct H.
  - destruct t as [|[]| |]; intros H; try discriminate; cbn; auto 8.
Qed.
Lemma no_data_exists t : raster_type t -> exists nd, no_data_value t = Some nd /\ vty_of nd = t /\ argument nd /\ blank nd = true.
Proof.
  intros H. apply raster_type_supported in H.
  destruct t as [|[]| |]; try discriminate H; eexists; (split; [reflexivity|]); (split; [reflexivity|]);
    (split; [try (cbn; lia); reflexivity|reflexivity]).
Qed.
Lemma same_type_refl t : same_type t t = true.
Proof. destruct t as [|[]| |]; reflexivity. Qed.
Lemma same_type_eq s t : same_type s t = true -> s = t.
Proof. destruct s as [|[]| |], t as [|[]| |]; try reflexivity; discriminate. Qed.
Lemma typed_proper h a r : holds h a r -> typed h a (value_type r) = Done r.
Proof. intros [H (_ & l & D & _)]. unfold typed. rewrite H, D, same_type_refl. reflexivity. Qed.
Lemma deref_holds h a r : holds h a r -> deref h a = Done r.
Proof. intros [H _]. unfold deref. rewrite H. reflexivity. Qed.
Lemma switch_supported {A} debug t (case : outcome A) nothing : raster_type t -> switch debug t case nothing = case.
Proof. intros H. unfold switch. rewrite (proj1 (raster_type_supported t) H). reflexivity. Qed.
Lemma has_sizes_holds h a r like : holds h a r -> same_shape r like -> has_sizes h (Ref a) like = true.
Proof. intros [H _] [S1 S2]. unfold has_sizes. rewrite H, S1, S2, !Nat.eqb_refl. reflexivity. Qed.


Lemma assert_true {A} debug b (p : outcome A) : b = true \/ debug = false -> assert debug b p = p.
Proof. unfold assert, failed_assertion. intros [->| ->]; [|destruct b]; reflexivity. Qed.

(** The loop over a new raster *)
Definition made (t : vty) (like : raster) (G : nat -> option num) : raster :=
  Raster t (rows like) (cols like) (origin like) (cell_sizes like) (Some (map G (seq 0 (size like)))).
Definition blank_raster (t : vty) (like : raster) : raster :=
  Raster t (rows like) (cols like) (origin like) (cell_sizes like) (Some (repeat None (size like))).
Lemma loop_new t like h step (G : nat -> option num) nd :
  no_data_value t = Some nd ->
  (forall i l, (i < size like)%nat -> length l = size like -> nth_error l i = nth_error (repeat None (size like)) i ->
     step i (upd (allocate h t like) (length h) (blank_raster t like) l) =
     match G i with Some f => Done (upd (allocate h t like) (length h) (blank_raster t like) (replace l i (Some f))) | None => Undefined end) ->
  loop step (indices (rows like) (cols like)) (allocate h t like) =
  if forallb (fun i => match G i with Some _ => true | None => false end) (seq 0 (size like))
  then Done (h ++ [made t like G]) else Undefined.
Proof.
  intros ND HS. rewrite indices_seq. fold (size like).
  assert (Hd : nth_error (allocate h t like) (length h) = Some (blank_raster t like)).
  { unfold allocate. rewrite nth_error_app2, Nat.sub_diag by lia. reflexivity. }
  assert (Len : length (repeat (@None num) (size like)) = size like) by apply repeat_length.
  rewrite <- Len at 1.
  rewrite (loop_all (allocate h t like) (length h) (blank_raster t like) (repeat None (size like)) nd Hd eq_refl ND _ G).
  - rewrite Len. destruct (forallb _ _); [|reflexivity]. f_equal. unfold upd, allocate.
    rewrite replace_middle by reflexivity. reflexivity.
  - intros i l Hi L E. rewrite Len in Hi, L. apply HS; auto.
Qed.

(** The operand holds [v] at [i]. *)
Definition at_operand (debug : bool) (h : heap) (o : operand) (i : nat) (v : num) : Prop :=
  match o with
  | Number n => n = v
  | Ref a => (a < length h)%nat /\ get debug h a i = Done v
  end.
Lemma get_app debug h r a i : (a < length h)%nat -> get debug (h ++ [r]) a i = get debug h a i.
Proof. intros H. unfold get. rewrite nth_error_app1 by auto. reflexivity. Qed.
Lemma at_operand_reads debug h t like o i v : at_operand debug h o i v ->
  reads debug (allocate h t like) (length h) (repeat None (size like)) o i v (fun _ => v).
Proof.
  intros A. destruct o as [a|n]; cbn [reads at_operand] in *; [|auto].
  destruct A as (La & Ga). destruct (Nat.eqb_spec a (length h)); [lia|]. split; auto. unfold allocate. rewrite get_app; auto.
Qed.

Lemma run_binary_spec debug alg rng o1 o2 like t h (G : nat -> option num) :
  raster_type t -> has_sizes h o1 like && has_sizes h o2 like = true \/ debug = false ->
  (forall nd i, no_data_value t = Some nd -> (i < size like)%nat -> exists v1, at_operand debug h o1 i v1 /\
     ((exists v2, at_operand debug h o2 i v2 /\
       becomes alg rng (is_ref o1) (is_ref o2) nd (fun _ => v1) (fun _ => v2) v1 v2 = G i) \/
      (** the second argument cannot be read *)
      (exists a, o2 = Ref a /\ (a < length h)%nat /\ get debug h a i = Undefined /\
         G i = if is_ref o1 && is_no_data v1 then Some nd else None))) ->
  run_binary debug alg rng o1 o2 like t h =
  if forallb (fun i => match G i with Some _ => true | None => false end) (seq 0 (size like))
  then Done (h ++ [made t like G], Some (length h))
  else Undefined.
Proof.
  intros RT HS HG. unfold run_binary. rewrite assert_true by auto.
  destruct (no_data_exists t RT) as (nd & ND & _).
  assert (Hd : nth_error (allocate h t like) (length h) = Some (blank_raster t like)).
  { unfold allocate. rewrite nth_error_app2, Nat.sub_diag by lia. reflexivity. }
  rewrite (loop_new t like h _ G nd ND).
  - destruct (forallb _ _); reflexivity.
  - intros i l Hi L E. destruct (HG nd i ND Hi) as (v1 & A1 & A2).
    assert (Len : length (repeat (@None num) (size like)) = size like) by apply repeat_length.
    destruct A2 as [(v2 & A2 & B)|(a & -> & La & Ga & B)].
    + rewrite <- B. apply (binary_step debug (allocate h t like) (length h) (blank_raster t like) (repeat None (size like)) nd Hd ND); auto; try lia.
      * apply at_operand_reads; auto.
      * apply at_operand_reads; auto.
    + rewrite B. unfold binary_cell.
      destruct (fetch_before debug (allocate h t like) (length h) (blank_raster t like) (repeat None (size like)) Hd o1 i v1 (fun _ => v1) l)
        as [F1 D1]; auto using at_operand_reads.
      rewrite D1. cbn [bind]. destruct (is_ref o1 && is_no_data v1).
      * apply mark_dst; auto. lia.
      * cbn [detect]. rewrite get_other by lia. unfold allocate. rewrite get_app by auto. rewrite Ga. reflexivity.
Qed.

Lemma run_if_spec debug c o1 o2 like t h (G : nat -> num) :
  raster_type t -> has_sizes h o1 like && has_sizes h o2 like = true \/ debug = false ->
  (forall nd i, no_data_value t = Some nd -> (i < size like)%nat -> exists vc v1 v2,
     at_operand debug h (Ref c) i vc /\ at_operand debug h o1 i v1 /\ at_operand debug h o2 i v2 /\
     becomes_choice nd (is_ref o1) (is_ref o2) vc v1 v2 = G i) ->
  run_if debug c o1 o2 like t h = Done (h ++ [made t like (fun i => Some (G i))], Some (length h)).
Proof.
  intros RT HS HG. unfold run_if. rewrite assert_true by auto.
  destruct (no_data_exists t RT) as (nd & ND & _).
  assert (Hd : nth_error (allocate h t like) (length h) = Some (blank_raster t like)).
  { unfold allocate. rewrite nth_error_app2, Nat.sub_diag by lia. reflexivity. }
  rewrite (loop_new t like h _ (fun i => Some (G i)) nd ND).
  - replace (forallb _ _) with true; [reflexivity|]. symmetry. apply forallb_forall. auto.
  - intros i l Hi L E. destruct (HG nd i ND Hi) as (vc & v1 & v2 & Ac & A1 & A2 & B). rewrite <- B.
    assert (Len : length (repeat (@None num) (size like)) = size like) by apply repeat_length.
    destruct Ac as [Lc Gc].
    apply (if_step debug (allocate h t like) (length h) (blank_raster t like) (repeat None (size like)) nd Hd ND c o1 o2 i l vc v1 v2 (fun _ => v1) (fun _ => v2)); auto; try lia.
    + unfold allocate. rewrite get_app; auto.
    + apply at_operand_reads; auto.
    + apply at_operand_reads; auto.
Qed.

(** The loop over an existing raster *)
Lemma in_place_spec debug alg rng h self other r1 r2 (G : nat -> option num) :
  holds h self r1 -> holds h other r2 -> value_type r2 = value_type r1 ->
  (has_sizes h (Ref other) r1 = true \/ debug = false) -> (size r1 <= size r2)%nat ->
  (forall nd i v1 v2, no_data_value (value_type r1) = Some nd -> (i < size r1)%nat ->
     get debug h self i = Done v1 -> get debug h other i = Done v2 ->
     becomes alg rng true true nd (fun r => r) (fun r => if Nat.eqb other self then r else v2) v1 v2 = G i) ->
  in_place debug alg rng h self other =
  if forallb (fun i => match G i with Some _ => true | None => false end) (seq 0 (size r1))
  then Done (replace h self (made (value_type r1) r1 G)) else Undefined.
Proof.
  intros H1 H2 T HS SZ HG. unfold in_place. rewrite (deref_holds _ _ _ H1), (deref_holds _ _ _ H2). cbn [bind].
  rewrite T, same_type_refl. rewrite assert_true by auto. rewrite switch_supported by apply H1.
  rewrite (typed_proper _ _ _ H1). cbn [bind].
  assert (TY := typed_proper _ _ _ H2). rewrite T in TY. rewrite TY. cbn [bind]. rewrite assert_true by auto.
  rewrite indices_seq. fold (size r1).
  destruct (proj2 H1) as (RT & l0 & D & L & P). destruct (no_data_exists _ RT) as (nd & ND & _).
  rewrite <- L at 1. rewrite (loop_all h self r1 l0 nd (proj1 H1) D ND _ G).
  - rewrite L. destruct (forallb _ _); [|reflexivity]. reflexivity.
  - intros i l Hi Ll E. rewrite L in Hi.
    destruct (proper_get debug h self r1 i H1 Hi) as (v1 & G1 & _ & _ & l1 & D1 & _ & N1).
    assert (l1 = l0) by congruence. subst l1.
    destruct (proper_get debug h other r2 i H2 ltac:(lia)) as (v2 & G2 & _ & _).
    rewrite <- (HG nd i v1 v2 ND Hi G1 G2).
    apply (binary_step debug h self r1 l0 nd (proj1 H1) ND alg rng (Ref self) (Ref other) i l v1 v2); auto; try lia.
    + cbn [reads]. rewrite Nat.eqb_refl. auto.
    + cbn [reads]. destruct (Nat.eqb_spec other self) as [->|Ne]; [|auto]. split; auto. congruence.
Qed.

Lemma nth_map_seq {A} (G : nat -> A) n i : (i < n)%nat -> nth_error (map G (seq 0 n)) i = Some (G i).
Proof.
  intros H. rewrite nth_error_map. replace (nth_error (seq 0 n) i) with (Some i); [reflexivity|].
  symmetry. rewrite nth_error_nth' with (d := 0%nat) by (rewrite seq_length; auto). f_equal. rewrite seq_nth by auto. reflexivity.
Qed.

(** A raster made of numbers of its type is proper, and what is read in it is known. *)
Lemma made_of t nr nc og cs (G : nat -> option num) : raster_type t ->
  (forall i, (i < nr * nc)%nat -> exists f, G i = Some f /\ vty_of f = t /\ argument f) ->
  let r := Raster t nr nc og cs (Some (map G (seq 0 (nr * nc)))) in
  proper r /\ forall i, (i < nr * nc)%nat -> forall f, G i = Some f -> reading r i = kept f.
Proof.
  intros RT H r. split.
  - split; auto. exists (map G (seq 0 (nr * nc))). split; [reflexivity|]. split; [rewrite map_length, seq_length; reflexivity|].
    intros i Hi. destruct (H i Hi) as (f & E & T & A). exists f. rewrite nth_map_seq, E by auto. auto.
  - intros i Hi f E. apply (reading_at r (map G (seq 0 (nr * nc)))); [reflexivity|]. rewrite nth_map_seq, E by auto. reflexivity.
Qed.
Lemma all_some (G : nat -> option num) n : (forall i, (i < n)%nat -> exists f, G i = Some f) ->
  forallb (fun i => match G i with Some _ => true | None => false end) (seq 0 n) = true.
Proof.
  intros H. apply forallb_forall. intros i Hi. apply in_seq in Hi. destruct (H i ltac:(lia)) as (f & ->). reflexivity.
Qed.
Lemma not_all_some (G : nat -> option num) n i : (i < n)%nat -> G i = None ->
  forallb (fun i => match G i with Some _ => true | None => false end) (seq 0 n) = false.
Proof.
  intros Hi E. destruct (forallb _ _) eqn:Fb; auto. rewrite forallb_forall in Fb. specialize (Fb i). rewrite in_seq, E in Fb.
  discriminate Fb. lia.
Qed.
Lemma returns_made h t like (G : nat -> option num) : proper (made t like G) ->
  returns h (Done (h ++ [made t like G], Some (length h))) (made t like G).
Proof.
  intros P. exists (h ++ [made t like G]). split; [reflexivity|]. split; [rewrite app_length; cbn; lia|]. split.
  - intros a Ha. apply nth_error_app1. auto.
  - split; auto. rewrite nth_error_app2, Nat.sub_diag by lia. reflexivity.
Qed.
Lemma changes_made h self r1 (G : nat -> option num) : nth_error h self = Some r1 -> proper (made (value_type r1) r1 G) ->
  changes h (Done (replace h self (made (value_type r1) r1 G))) self (made (value_type r1) r1 G).
Proof.
  intros H P. exists (replace h self (made (value_type r1) r1 G)). split; [reflexivity|]. split; [apply replace_length|]. split.
  - intros b Hb. apply nth_replace_other. congruence.
  - split; auto. apply nth_replace_same. apply nth_error_Some. congruence.
Qed.
Lemma made_proper t like (G : nat -> option num) : raster_type t ->
  (forall i, (i < size like)%nat -> exists f, G i = Some f /\ vty_of f = t /\ argument f) ->
  proper (made t like G) /\ forall i f, (i < size like)%nat -> G i = Some f -> reading (made t like G) i = kept f.
Proof.
  intros RT H. destruct (made_of t (rows like) (cols like) (origin like) (cell_sizes like) G RT H) as [A B]. split; [exact A|].
  intros i f Hi E. apply B; auto.
Qed.
Lemma made_placed t like G : placed_like (made t like G) like.
Proof. repeat split. Qed.
Lemma holds_lt h a r : holds h a r -> (a < length h)%nat.
Proof. intros [H _]. apply nth_error_Some. congruence. Qed.
