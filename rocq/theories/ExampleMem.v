(** Concrete memories for the examples. *)
From Coq Require Import ZArith List Bool.
From Verif Require Import LangModel.
Import ListNotations.
Open Scope Z_scope.

(** Element [i] of a list. *)
Definition at_index {X} (l : list X) (i : Z) : option X :=
  if i <? 0 then None else nth_error l (Z.to_nat i).

(** Buffer [b] has the values [nth b vs] and the mask [nth b ms]. *)
Definition mem_of {V} (vs : list (list V)) (ms : list (list bool)) : mem V :=
  {| mval := fun b i => match nth_error vs b with Some l => at_index l i | None => None end;
     mmsk := fun b i => match nth_error ms b with Some l => at_index l i | None => None end |}.

(** The first [n] values or mask cells of a buffer after a run. *)
Definition values_of {V A} (r : option (A * mem V)) (b : buf) (n : nat) : list (option V) :=
  match r with
  | Some (_, m) => map (fun k => mval m b (Z.of_nat k)) (List.seq 0%nat n)
  | None => []
  end.
Definition mask_of {V A} (r : option (A * mem V)) (b : buf) (n : nat) : list (option bool) :=
  match r with
  | Some (_, m) => map (fun k => mmsk m b (Z.of_nat k)) (List.seq 0%nat n)
  | None => []
  end.
