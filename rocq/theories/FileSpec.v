(** * What reading and writing rasters should do *)
From Coq Require Import ZArith List Bool SpecFloat Ascii.
From Verif Require Import IntsModel ArithModel FloatModel IeeeSpec FloatSpec StringModel RasterModel RasterSpec FileModel.
Import ListNotations.
Open Scope Z_scope.

(** The types of cells that there are in files *)
Definition file_type (t : vty) : Prop :=
  In t [VInt U8; VInt U16; VInt S16; VInt U32; VInt S32; VFloat32; VFloat64].

(** A raster with a number of such a type in every cell *)
Definition storable (r : raster) : Prop :=
  file_type (value_type r) /\
  exists l, data r = Some (map Some l) /\ length l = size r /\
    forall n, In n l -> vty_of n = value_type r /\ argument n.

(** A file with a number of its type in every cell; its no-data value is a double. *)
Definition sound (f : file) (t : vty) : Prop :=
  value_type_of (band_type f) = Some t /\ length (cells f) = (y_size f * x_size f)%nat /\
  (forall n, In n (cells f) -> vty_of n = t /\ argument n) /\
  (forall d, no_data f = Some d -> argument (NFloat Double d)).

(** The name of a file: not empty, without a colon *)
Definition plain (name : text) : Prop := name <> [] /\ ~ In ":"%char name.

(** The same number; NaN is not the same as any. *)
Definition equals (n m : num) : Prop :=
  match n, m with
  | NInt _ z, NInt _ y => z = y
  | NFloat f x, NFloat _ y => is_nan x = false /\ is_nan y = false /\ alike f x y
  | _, _ => False
  end.

(** What is to be read of a cell [n], if the cells equal to [m] have no data in the file *)
Definition understood (m : option num) (n : num) (out : option num) : Prop :=
  (exists k, m = Some k /\ equals n k /\ out = None) \/
  ((forall k, m = Some k -> ~ equals n k) /\ out = kept n).
