(** * What slope, laplacian and lax are expected to compute in exact arithmetic *)
From Coq Require Import ZArith List Bool QArith Qcanon.
From Verif Require Import LangModel IndexSpec PolicyModel LocalSpec ConvolveModel ConvolveSpec VectorModel VectorSpec.
Import ListNotations.
Open Scope Z_scope.

(** Rational numbers are always finite; the square root is any function.  The only
    power that is used is the second. *)
Definition exact (root : Qc -> Qc) : floats Qc :=
  {| lit := fun z => Q2Qc (inject_Z z);
     fadd := Qcplus; fsub := Qcminus; fmul := Qcmult; fdiv := Qcdiv;
     fpow := fun x _ => Qcmult x x; fsqrt := root;
     finite := fun _ => true; is_zero := fun x => Qc_eq_bool x (Q2Qc 0) |}.

(** Sums; [divide]: [DivideByWeights] *)
Definition exact_sums (divide : bool) : arith Qc Qc Qc Qc :=
  {| zero_v := Q2Qc 0; zero_w := Q2Qc 0; add := Qcplus; add_scaled := fun s v w => Qcplus s (Qcmult v w);
     add_weight := Qcplus; add_one := fun s => Qcplus s (Q2Qc 1);
     nonzero := fun w => negb (Qc_eq_bool w (Q2Qc 0));
     average := fun s n => Qcdiv s (Q2Qc (inject_Z n)); in_range := fun _ => true;
     normalize := fun s w => if divide then Qcdiv s w else s |}.

(** The values of the raster, where they are valid. *)
Definition raster_is (ip : inpol Qc) (value : buf) (rows cols : Z) (m : mem Qc) (z : Z * Z -> Qc) : Prop :=
  forall c v, in_image rows cols c = true -> value_at ip value cols m c = Some v -> v = z c.

(** The value of a cell of the raster, or else the average of the values around it. *)
Definition filled (ip : inpol Qc) (value : buf) (rows cols : Z) (m : mem Qc) (c : Z * Z) : option Qc :=
  match (if in_image rows cols c then value_at ip value cols m c else None) with
  | Some v => Some v
  | None => focal_average (exact_sums false) ip value rows cols m c
  end.

(** All cells with a value or an average: the weighted sum of nine cells. *)
Definition nine_cells : list (Z * Z) :=
  [(-1, -1); (-1, 0); (-1, 1);  (0, -1); (0, 0); (0, 1);  (1, -1); (1, 0); (1, 1)].
Definition sum_of_nine (z : Z * Z -> Qc) (weights : list Z) (f : Z * Z) : Qc :=
  fold_right (fun dw s => Qcplus (Qcmult (z (fst f + fst (fst dw), snd f + snd (fst dw))) (Q2Qc (inject_Z (snd dw)))) s)
    (Q2Qc 0) (combine nine_cells weights).
