(** * What command line arguments mean *)
From Coq Require Import String ZArith List Bool SpecFloat Ascii.
From Verif Require Import IntsModel ArithModel FloatModel StringModel RasterModel StoreModel DriverModel CommandModel.
Import ListNotations.
Open Scope Z_scope.

(** [c] is the digit [d] *)
Definition is_digit (c : ascii) (d : Z) : Prop :=
  0 <= d /\ nth_error (list_ascii_of_string "0123456789"%string) (Z.to_nat d) = Some c.
Inductive decimal : text -> Z -> Prop :=
| decimal_one c d : is_digit c d -> decimal [c] d
| decimal_more s z c d : decimal s z -> is_digit c d -> decimal (s ++ [c]) (10 * z + d).
Inductive spelled : text -> Z -> Prop :=
| spelled_digits s z : decimal s z -> spelled s z
| spelled_plus s z : decimal s z -> spelled ("+"%char :: s) z
| spelled_minus s z : decimal s z -> spelled ("-"%char :: s) (- z).
Definition fits (z : Z) : Prop := - 2 ^ 63 <= z < 2 ^ 63.

(** An argument stands for an integer, else for a floating point number, else for its text. *)
Inductive constant_of (double_of : text -> option spec_float) (s : text) : source -> Prop :=
| constant_integer z : spelled s z -> fits z -> constant_of double_of s (Integer z)
| constant_number x : (forall z, spelled s z -> ~ fits z) -> double_of s = Some x -> constant_of double_of s (Number x)
| constant_words : (forall z, spelled s z -> ~ fits z) -> double_of s = None -> constant_of double_of s (Words s).
