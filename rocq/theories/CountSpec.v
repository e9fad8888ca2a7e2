(** * What counting means *)
From Coq Require Import ZArith List Bool.
From Verif Require Import LangModel ConcModel IndexModel IndexSpec LoopModel LoopSpec PolicyModel
  LocalSpec IntsModel ArithSpec CountModel.
Import ListNotations.
Open Scope Z_scope.

(** The elements of [l] that neither policy calls no-data. *)
Definition valid_elements (ip1 ip2 : inpol Z) (m : mem Z) (l : list Z) : list Z :=
  filter (fun i => negb (nd_at ip1 m i || nd_at ip2 m i)) l.

(** How many valid elements of [l] equal [w]. *)
Definition occurrences (ip1 ip2 : inpol Z) (a : buf) (w : Z) (m : mem Z) (l : list Z) : Z :=
  Z.of_nat (length (filter (fun i => match mval m a i with Some v => v =? w | None => false end)
                           (valid_elements ip1 ip2 m l))).

(** The number can be counted in type [R]: it fits, or overflow is defined. *)
Definition countable (wrapv : bool) (R : ity) (n : Z) : Prop :=
  fits_in R n \/ wrapv = true \/ ~ wide_signed R.

(** The argument and its policies can be read at every element of [l], and are stored elsewhere
    than the result. *)
Definition countable_argument (ip1 ip2 : inpol Z) (op : outpol Z) (a rb : buf) (m : mem Z)
    (l : list Z) : Prop :=
  a <> rb /\ policy_apart ip1 op rb /\ policy_apart ip2 op rb /\
  forall i, In i l -> mval m a i <> None /\ readable ip1 m i /\ readable ip2 m i.

(** Whatever the schedule, the tasks do not race and do not fault, and they can always still
    complete; once they have, [join] ends in a memory that holds outcome [o], and
    nothing but the result, its mark and the results per block [pb] has changed. *)
Definition tasks_then (tasks : list (prog Z unit)) (join : prog Z unit) (op : outpol Z)
    (rb pb : buf) (o : outcome Z) (m : mem Z) : Prop :=
  no_race tasks m /\
  forall sched, exists ps m1, exec sched tasks m = Some (ps, m1) /\
    (all_done ps = true ->
     exists m2, run join m1 = Some (tt, m2) /\ holds op rb m m2 0 o /\
       (forall b i, b <> pb -> b <> rb \/ i <> 0 -> mval m2 b i = mval m b i) /\
       (forall b i, mask_buffer op <> Some b \/ i <> 0 -> mmsk m2 b i = mmsk m b i)) /\
    exists sched' ps' m', exec sched' ps m1 = Some (ps', m') /\ all_done ps' = true.

(** What the parallel algorithm leaves behind when a block has no data: the mark of the block is
    set in the mask, and stays; a mark by value is overwritten by the sum. *)
Definition marked_anyway (op : outpol Z) (r : Z) : outcome Z :=
  match op with MarkByMask _ _ => OutOfRange r | _ => Value r end.

(** The results per block: one 0 for each block, not masked. *)
Definition fresh_results (pb : buf) (n : Z) (m : mem Z) : Prop :=
  forall k, 0 <= k < n -> mval m pb k = Some 0 /\ mmsk m pb k = Some false.

(** No two of the blocks [l] satisfy [P]. *)
Definition at_most_one {X} (P : X -> Prop) (l : list X) : Prop :=
  forall i j x y, nth_error l i = Some x -> nth_error l j = Some y -> P x -> P y -> i = j.

(** The elements of the first row of a block of a raster with [cols] columns. *)
Definition first_row (cols : Z) (blk : block2) : list Z :=
  map (fun j => linear cols (rbegin (fst blk), j)) (indices (snd blk)).

(** What a block of a raster contributes. *)
Definition block_count (ip1 ip2 : inpol Z) (a : buf) (w : Z) (m : mem Z) (cols : Z)
    (blk : block2) : Z :=
  match valid_elements ip1 ip2 m (first_row cols blk) with
  | [] => 0
  | _ => occurrences ip1 ip2 a w m (block_elements cols blk)
  end.

Definition sum_over {X} (f : X -> Z) (l : list X) : Z := fold_right (fun x s => f x + s) 0 l.
