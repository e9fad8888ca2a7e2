(** * Model of the median and the mode of floating point numbers

    Models [algorithm/accumulator/{median,mode}.h] and [accumulator/detail/frequency_table.h]
    for an [Argument] and a [Result] that are the same floating point type.  Integers are in
    [AccumModel].

    Simplifications: those of [FloatModel] (one kind of NaN, no excess precision); the keys of
    [std::unordered_map] are compared by [==], so that NaNs are keys of their own, as
    implementations do, although the C++ standard wants keys to be equal to themselves; a
    missing result ([None]) is a failed assertion or undefined behaviour. *)
From Coq Require Import ZArith List Bool SpecFloat.
From Verif Require Import IntsModel FloatModel AccumModel IeeeSpec.
Import ListNotations.
Open Scope Z_scope.

(** [std::sort] with [<] is only defined if values of which neither is less than the other are
    like equal values.  NaN is like that with every value, so there must be no NaN, or no value
    that is less than another one. *)
Definition sortable (l : list spec_float) : bool :=
  negb (existsb is_nan l) || forallb (fun x => forallb (fun y => negb (SFltb x y)) l) l.

Section Median.
Variable f : fmt.
(** [std::sort], which is not stable: it may order equal values (zeros) in any way *)
Variable sort : list spec_float -> list spec_float.

(** median.h:123-155; the 2 is converted to the floating point type *)
Definition fmedian_result (l : list spec_float) : option spec_float :=
  match l with
  | [] => None
  | _ =>
      if sortable l then
        let s := sort l in
        let center := Nat.div (length s) 2 in
        if Nat.odd (length s) then Some (nth center s S754_nan)
        else Some (SFdiv (fprec f) (femax f)
                     (SFadd (fprec f) (femax f) (nth (center - 1) s S754_nan) (nth center s S754_nan))
                     (to_format f (NInt S32 2)))
      else None
  end.

(** median.h:65-121, 157-173; that the result sorts the values of the accumulator is left out:
    their order does not matter *)
Definition fmedian_accu : accu spec_float (list spec_float) :=
  {| a_init := [];
     a_from := fun v => Some [v];
     a_add := fun l v => Some (l ++ [v], true);
     a_merge := fun l k => Some (l ++ k, true);
     a_result := fmedian_result |}.
End Median.

Definition ftable := list (spec_float * Z).

(** frequency_table.h:99-106: [++_frequency[value]] *)
Fixpoint ffreq_plus (t : ftable) (v : spec_float) (n : Z) : ftable :=
  match t with
  | [] => [(v, n)]
  | (w, k) :: t' => if SFeqb w v then (w, k + n) :: t' else (w, k) :: ffreq_plus t' v n
  end.

(** frequency_table.h:109-128 *)
Definition ffreq_merge (t u : ftable) : ftable :=
  fold_left (fun t' p => ffreq_plus t' (fst p) (snd p)) u t.

(** [std::max_element] with [lhs.second < rhs.second]: the first of the largest *)
Fixpoint fmax_element (best : spec_float * Z) (l : ftable) : spec_float * Z :=
  match l with
  | [] => best
  | p :: l' => fmax_element (if snd best <? snd p then p else best) l'
  end.

(** frequency_table.h:145-170; [l] is the table in the order in which the map is visited *)
Definition ffreq_mode (l : ftable) : option spec_float :=
  match l with
  | [] => None
  | p :: l' => Some (fst (fmax_element p l'))
  end.

(** mode.h:60-148; the default constructor initialises the table with the value 0 *)
Definition fmode_accu (order : ftable -> ftable) : accu spec_float ftable :=
  {| a_init := [(S754_zero false, 1)];
     a_from := fun v => Some [(v, 1)];
     a_add := fun t v => Some (ffreq_plus t v 1, true);
     a_merge := fun t u => Some (ffreq_merge t u, true);
     a_result := fun t => ffreq_mode (order t) |}.
