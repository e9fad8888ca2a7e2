(** * Properties of references to Python objects: C86 *)
From Coq Require Import String ZArith List Bool Arith Lia Permutation.
From Verif Require Import StringModel RefModel RefSpec RefProofs.
Import ListNotations.

(** Whatever is done with instances by callers that hand over the references they own: nothing goes
    wrong, in debug and release builds; afterwards all counts are right, whoever holds the
    references *)
Theorem C86_counts debug h outside calls l :
  counted h outside -> entitled_all h (Ledger outside [] []) calls l ->
  exists w, run debug calls (World h [] []) = Ok w /\ owned w = inst l /\ counted (objects w) (held l).
Proof.
  intros C E. destruct (run_invariant debug h calls (Ledger outside [] []) l (World h [] [])) as (w & R & I); [|exact E|].
  - split; [|cbn; auto using evolves_refl, orderly_refl]. eapply counted_perm; [|exact C]. unfold held; cbn. rewrite app_nil_r. apply Permutation_refl.
  - destruct I as (Cw & O & _). eauto.
Qed.
Print Assumptions C86_counts.

(** The objects that instances hold, and all that can be reached from them, are not freed and have not
    changed *)
Theorem C86_alive debug h outside calls l w i :
  counted h outside -> entitled_all h (Ledger outside [] []) calls l -> run debug calls (World h [] []) = Ok w ->
  reaches h (held l) i -> exists x, is h i x /\ is (objects w) i x.
Proof.
  intros C E R P. destruct (run_invariant debug h calls (Ledger outside [] []) l (World h [] [])) as (w' & R' & I); [|exact E|].
  - split; [|cbn; auto using evolves_refl, orderly_refl]. eapply counted_perm; [|exact C]. unfold held; cbn. rewrite app_nil_r. apply Permutation_refl.
  - rewrite R in R'. injection R' as <-. destruct I as (Cw & _ & _ & V & _).
    destruct (reaches_alive _ _ _ _ Cw V P) as (n & x & A). exists x. split; [|exists n; exact A]. destruct V as [_ V]. eauto.
Qed.
Print Assumptions C86_alive.

(** An object is freed when, and only when, there is no reference to it any more *)
Theorem C86_freed debug h outside calls l w i :
  counted h outside -> entitled_all h (Ledger outside [] []) calls l -> run debug calls (World h [] []) = Ok w ->
  (alive (objects w) i <-> In i (references (objects w) (held l))).
Proof.
  intros C E R. destruct (C86_counts debug h outside calls l C E) as (w' & R' & _ & Cw). rewrite R in R'. injection R' as <-.
  split; [|apply referenced_alive; exact Cw]. intros (n & x & A). specialize (Cw i). rewrite A in Cw. apply number_in. lia.
Qed.
Print Assumptions C86_freed.

(** Once all instances are destructed and other code holds what it held before, Python's objects are
    as they were: nothing is leaked, nothing is freed *)
Theorem C86_restored debug h outside outside' calls lent w :
  counted h outside -> entitled_all h (Ledger outside [] []) calls (Ledger outside' [] lent) -> Permutation outside' outside ->
  run debug calls (World h [] []) = Ok w -> objects w = h.
Proof.
  intros C E P R. destruct (run_invariant debug h calls (Ledger outside [] []) (Ledger outside' [] lent) (World h [] [])) as (w' & R' & I); [|exact E|].
  - split; [|cbn; auto using evolves_refl, orderly_refl]. eapply counted_perm; [|exact C]. unfold held; cbn. rewrite app_nil_r. apply Permutation_refl.
  - rewrite R in R'. injection R' as <-. destruct I as (Cw & _ & _ & V & O).
    eapply restored; [exact C|exact Cw| |exact V|exact O].
    intros i. rewrite held_number. cbn. unfold number. rewrite (proj1 (Permutation_count_occ Nat.eq_dec _ _) P i). lia.
Qed.
Print Assumptions C86_restored.

(** An object is stored at the address of an instance that holds one: debug builds abort, release
    builds forget the reference without dropping it *)
Theorem C86_store debug h l b v i o :
  instance l v = Some (Some i) ->
  step debug (Store v o) (World h l b) = if debug then Abort else Ok (World h (replace l v o) b).
Proof. intros E. cbn [step]. rewrite E. cbn. destruct debug; reflexivity. Qed.
Print Assumptions C86_store.

(** A tuple of a string and a number; the string is also referred to by other code *)
Definition some_heap : heap := [Live 1 (Tuple [1; 2]); Live 2 (Str (lit "abc")); Live 1 (Int 7)].
Example some_counted : counted some_heap [0; 1].
Proof.
  intros [|[|[|i]]]; vm_compute; auto. destruct i; cbn; auto.
Qed.

(** An item of the tuple is obtained and handed to an instance, the tuple is dropped, and freed; the
    item is still there and the other one is not. *)
Definition some_calls : list call :=
  [Obtain 2; From 5 (Some 2); Default 6; Keep 7 (Some 1); GiveUp 0; Use 5; Assign 6 None; Obtain 2; Assign 6 (Some 2); End 7].
Example C86_case : exists l, entitled_all some_heap (Ledger [0; 1] [] []) some_calls l /\
  run true some_calls (World some_heap [] []) = Ok (World [Freed; Live 1 (Str (lit "abc")); Live 2 (Int 7)] [(6, Some 2); (5, Some 2)] []).
Proof.
  exists (Ledger [1] [(6, Some 2); (5, Some 2)] []). split; [|reflexivity].
  assert (T0 : is some_heap 0 (Tuple [1; 2])) by (exists 1; reflexivity).
  unfold some_calls.
  eapply EntitledMore. { apply MayObtain. eapply ReachesItem; [apply ReachesHeld|exact T0|]; cbn; auto. }
  eapply EntitledMore. { apply MayFrom; [cbn; tauto|]. apply (TakenSome 2 []). }
  eapply EntitledMore. { apply MayDefault. cbn; lia. }
  eapply EntitledMore. { apply MayKeep; [cbn; lia|]. apply ReachesHeld. cbn; auto. }
  eapply EntitledMore. { apply MayGiveUp. apply (TakenSome 0 []). }
  eapply EntitledMore. { apply (MayUse _ _ _ _ 5 2 [(7, Some 1); (6, None)] []); [reflexivity|cbn; lia]. }
  eapply EntitledMore. { apply (MayAssignSame _ _ _ _ 6 None [(7, Some 1)] [(5, Some 2)]); [reflexivity|cbn; lia]. }
  eapply EntitledMore. { apply MayObtain. apply ReachesHeld. cbn; auto. }
  eapply EntitledMore. { apply (MayAssign _ _ [1] _ _ 6 None (Some 2) [(7, Some 1)] [(5, Some 2)]); [reflexivity|cbn; lia|discriminate|]. apply (TakenSome 2 []). }
  eapply EntitledMore. { apply (MayEnd _ _ _ _ 7 (Some 1) [] [(6, Some 2); (5, Some 2)]); [reflexivity|cbn; lia]. }
  constructor.
Qed.
(** The hypotheses of the theorem that all is restored can be met too *)
Example C86_restored_case : exists lent, entitled_all some_heap (Ledger [0; 1] [] [])
  [Obtain 2; From 5 (Some 2); Borrow 1 (Some 0); UseBorrowed 1; Increment 5; GiveUp 2; End 5] (Ledger [0; 1] [] lent).
Proof.
  assert (T0 : is some_heap 0 (Tuple [1; 2])) by (exists 1; reflexivity).
  exists [(1, Some 0)].
  eapply EntitledMore. { apply MayObtain. eapply ReachesItem; [apply ReachesHeld|exact T0|]; cbn; auto. }
  eapply EntitledMore. { apply MayFrom; [cbn; tauto|]. apply (TakenSome 2 []). }
  eapply EntitledMore. { apply MayBorrow. }
  eapply EntitledMore. { apply (MayUseBorrowed _ _ _ _ 1 0 [] []); [reflexivity|cbn; tauto|]. apply ReachesHeld. cbn; auto. }
  eapply EntitledMore. { apply (MayIncrement _ _ _ _ 5 2 [] []); [reflexivity|cbn; tauto]. }
  eapply EntitledMore. { apply MayGiveUp. apply (TakenSome 2 []). }
  eapply EntitledMore. { apply (MayEnd _ _ _ _ 5 (Some 2) [] []); [reflexivity|cbn; tauto]. }
  constructor.
Qed.

(** A new reference is assigned to an instance that holds one to the same object already: the instance
    drops one reference of the two, and the other one is leaked *)
Theorem C86_same_refuted : forall debug, exists w,
  run debug [Obtain 2; From 5 (Some 2); Obtain 2; Assign 5 (Some 2); End 5] (World some_heap [] []) = Ok w /\
  owned w = [] /\ nth_error some_heap 2 = Some (Live 1 (Int 7)) /\ nth_error (objects w) 2 = Some (Live 2 (Int 7)).
Proof. intros debug. eexists. destruct debug; repeat split. Qed.
Print Assumptions C86_same_refuted.

(** The object of a borrowed reference is freed by others; and an instance that is made of a reference
    that its caller does not own frees an object that others refer to *)
Theorem C86_borrowed_refuted : forall debug,
  run debug [Borrow 1 (Some 0); GiveUp 0; UseBorrowed 1] (World some_heap [] []) = Undef /\
  run debug [From 5 (Some 2); End 5; GiveUp 0] (World some_heap [] []) = Undef.
Proof. intros []; split; reflexivity. Qed.
Print Assumptions C86_borrowed_refuted.
