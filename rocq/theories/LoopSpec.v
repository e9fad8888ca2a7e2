(** * Linear cell indices, and what a set of tasks yields

    Cell [(i, j)] of a raster with [ncols] columns is element [i * ncols + j]. *)
From Coq Require Import ZArith List.
From Verif Require Import LangModel ConcModel IndexModel IndexSpec LoopModel.
Open Scope Z_scope.

Definition linear (ncols : Z) (c : Z * Z) : Z := fst c * ncols + snd c.

(** Linear indices of the cells of a block. *)
Definition block_elements (ncols : Z) (blk : block2) : list Z :=
  map (linear ncols) (cells2 blk).

(** The location that a task is about to access, and whether it is about to write it. *)
Definition next_access {V A} (p : prog V A) : option (loc * bool) :=
  match p with
  | RdV b i _ => Some (LV b i, false)
  | WrV b i _ _ => Some (LV b i, true)
  | RdM b i _ => Some (LM b i, false)
  | WrM b i _ _ => Some (LM b i, true)
  | _ => None
  end.

(** Under no schedule two tasks are about to access one location, one of them writing. *)
Definition no_race {V A} (tasks : list (prog V A)) (m0 : mem V) : Prop :=
  forall sched ps m, exec sched tasks m0 = Some (ps, m) ->
  forall i j p q l w w', i <> j -> nth_error ps i = Some p -> nth_error ps j = Some q ->
    next_access p = Some (l, w) -> next_access q = Some (l, w') -> w = false /\ w' = false.

(** Whatever the schedule, the tasks do not race and do not fault; once all have completed,
    the memory is [m1]; and they can always still complete. *)
Definition always_yields {V} (tasks : list (prog V unit)) (m0 m1 : mem V) : Prop :=
  no_race tasks m0 /\
  forall sched, exists ps m, exec sched tasks m0 = Some (ps, m) /\
    (all_done ps = true -> mem_eq m m1) /\
    exists sched' ps' m', exec sched' ps m = Some (ps', m') /\ all_done ps' = true.
