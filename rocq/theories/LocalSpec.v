(** * Element-wise specification of local operations

    What a user expects at one element, and what it means for a memory to hold it. *)

From Coq Require Import ZArith List Bool.
From Verif Require Import LangModel IndexSpec PolicyModel.
Import ListNotations.
Open Scope Z_scope.

Section Spec.
Context {V : Type}.

(** Element [i] is no-data according to the policy, in memory [m]. *)
Definition nd_at (ip : inpol V) (m : mem V) (i : Z) : bool :=
  match ip with
  | SkipNoData => false
  | AllNoData => true
  | DetectByMask b nd =>
      match mmsk m b i with Some x => Bool.eqb x nd | None => false end
  | DetectByValue b is_nd =>
      match mval m b i with Some v => is_nd v | None => false end
  end.

(** What the policy looks at exists. *)
Definition readable (ip : inpol V) (m : mem V) (i : Z) : Prop :=
  match ip with
  | DetectByMask b _ => mmsk m b i <> None
  | DetectByValue b _ => mval m b i <> None
  | _ => True
  end.

(** Element [i] of argument [a]: [None] if it is no-data. *)
Definition arg_at (ip : inpol V) (a : buf) (m : mem V) (i : Z) : option V :=
  if nd_at ip m i then None else mval m a i.

(** An argument element exists, with everything its policy looks at. *)
Definition arg_exists (ip : inpol V) (a : buf) (m : mem V) (i : Z) : Prop :=
  readable ip m i /\ mval m a i <> None.

(** A result element exists, with the cell that the policy marks. *)
Definition result_exists (op : outpol V) (rb : buf) (m : mem V) (i : Z) : Prop :=
  mval m rb i <> None /\
  match op with MarkByMask b _ => mmsk m b i <> None | _ => True end.

(** Marking by value marks the result itself. *)
Definition marks_result (op : outpol V) (rb : buf) : Prop :=
  match op with MarkByValue b _ => b = rb | _ => True end.

(** The outcome of an operation at one element. *)
Inductive outcome :=
| NoData             (** marked as no-data; the value is not computed *)
| Value (r : V)      (** the value [r] *)
| OutOfRange (r : V) (** [r] was computed but is out of range: marked as no-data *).

(** Unary operation [f] with domain [dom] and range check [rng]. *)
Definition unary_outcome (f : V -> V) (dom : V -> bool) (rng : V -> V -> bool)
    (a : option V) : outcome :=
  match a with
  | Some x => if dom x then if rng x (f x) then Value (f x) else OutOfRange (f x) else NoData
  | None => NoData
  end.

Definition binary_outcome (f : V -> V -> V) (dom : V -> V -> bool)
    (rng : V -> V -> V -> bool) (a1 a2 : option V) : outcome :=
  match a1, a2 with
  | Some x, Some y =>
      if dom x y then if rng x y (f x y) then Value (f x y) else OutOfRange (f x y)
      else NoData
  | _, _ => NoData
  end.

(** The value and the mark that an outcome leaves at an element, given the value and the
    mark that were there: a value is left alone unless a result was computed or the policy
    marks by value; a mark is never removed. *)
Definition final_value (op : outpol V) (old : V) (o : outcome) : V :=
  match o, op with
  | Value r, _ => r
  | NoData, MarkByValue _ nd | OutOfRange _, MarkByValue _ nd => nd
  | NoData, _ => old
  | OutOfRange r, _ => r
  end.

Definition final_mask (op : outpol V) (old : bool) (o : outcome) : bool :=
  match o, op with
  | Value _, _ => old
  | _, MarkByMask _ nd => nd
  | _, _ => old
  end.

Definition mask_buffer (op : outpol V) : option buf :=
  match op with MarkByMask b _ => Some b | _ => None end.

(** Memory [m'] holds outcome [o] at element [i] of result [rb], [m] being the memory
    before the operation. *)
Definition holds (op : outpol V) (rb : buf) (m m' : mem V) (i : Z) (o : outcome) : Prop :=
  mval m' rb i = option_map (fun old => final_value op old o) (mval m rb i) /\
  forall c, mask_buffer op = Some c ->
    mmsk m' c i = option_map (fun old => final_mask op old o) (mmsk m c i).

(** Nothing changes but values of [rb] and marks of the policy's mask at the elements of
    [l]. *)
Definition changes_only (op : outpol V) (rb : buf) (l : list Z) (m m' : mem V) : Prop :=
  (forall b i, b <> rb \/ ~ In i l -> mval m' b i = mval m b i) /\
  (forall b i, mask_buffer op <> Some b \/ ~ In i l -> mmsk m' b i = mmsk m b i).

(** The argument is stored elsewhere than the result. *)
Definition policy_apart (ip : inpol V) (op : outpol V) (rb : buf) : Prop :=
  match ip with
  | DetectByMask b _ => mask_buffer op <> Some b
  | DetectByValue b _ => b <> rb
  | _ => True
  end.

End Spec.

Arguments outcome V : clear implicits.

(** Run from memory [m], program [p] ends without undefined behaviour in a memory that holds
    outcome [o i] at every element [i < n] of result [rb], and everything else is as it
    was. *)
Definition computes {V} (p : prog V unit) (op : outpol V) (rb : buf) (n : Z)
    (o : Z -> outcome V) (m : mem V) : Prop :=
  exists m', run p m = Some (tt, m') /\
    (forall i, 0 <= i < n -> holds op rb m m' i (o i)) /\
    changes_only op rb (zrange 0 n) m m'.

(** The left fold [f (... (f x y1) ...) yn]; [None] if one of the operands is no-data. *)
Fixpoint fold_valid {V} (f : V -> V -> V) (acc : option V) (l : list (option V)) : option V :=
  match l with
  | [] => acc
  | y :: l' =>
      fold_valid f (match acc, y with Some x, Some y => Some (f x y) | _, _ => None end) l'
  end.

(** Every step of the fold is in the domain and in the range. *)
Fixpoint steps_ok {V} (f : V -> V -> V) (dom : V -> V -> bool) (rng : V -> V -> V -> bool)
    (acc : V) (l : list (option V)) : Prop :=
  match l with
  | [] => True
  | Some y :: l' =>
      dom acc y = true /\ rng acc y (f acc y) = true /\ rng (f acc y) y (f acc y) = true /\
      steps_ok f dom rng (f acc y) l'
  | None :: _ => False
  end.
