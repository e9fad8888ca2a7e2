(** * What reading and writing fields should do *)
From Coq Require Import ZArith List Bool SpecFloat Ascii.
From Verif Require Import IntsModel ArithModel FloatModel IeeeSpec FloatSpec StringModel RasterModel FileModel FileSpec FieldModel.
Import ListNotations.
Open Scope Z_scope.

(** A field with a number of the type in every cell, and at least one cell; the numbers of rows and
    columns fit an [int]. *)
Definition proper (t : vty) (f : field) : Prop :=
  file_type t /\ (0 < rows f)%nat /\ (0 < cols f)%nat /\
  length (values f) = (rows f * cols f)%nat /\ length (masked f) = (rows f * cols f)%nat /\
  forall n, In n (values f) -> vty_of n = t.

(** An image with one band, and a number of type [t] in every cell *)
Definition proper_image (t : vty) (i : image) : Prop :=
  bands i = 1%nat /\ value_type_of (type i) = Some t /\
  length (pixels i) = (height i * width i)%nat /\
  (forall m, mask_of i = Bytes m -> length m = (height i * width i)%nat) /\
  (forall m, mask_of i <> Alpha m).

(** The widths and heights of cells as they are calculated with doubles: size divided by number *)
Definition size_of_cells (from to : spec_float) (n : nat) : spec_float :=
  SFdiv 53 1024 (SFsub 53 1024 to from) (binary_normalize 53 1024 (Z.of_nat n) 0 false).
(** The cells of a field are squares. *)
Definition square (b : box) (f : field) : Prop :=
  SFltb (S754_zero false) (size_of_cells (west b) (east b) (cols f)) = true /\
  SFeqb (size_of_cells (west b) (east b) (cols f)) (size_of_cells (south b) (north b) (rows f)) = true.
(** [from] plus, or minus, [n] cells of a size *)
Definition further (from : spec_float) (n : nat) (cell : spec_float) : spec_float :=
  SFadd 53 1024 from (SFmul 53 1024 (binary_normalize 53 1024 (Z.of_nat n) 0 false) cell).
Definition back (from : spec_float) (n : nat) (cell : spec_float) : spec_float :=
  SFsub 53 1024 from (SFmul 53 1024 (binary_normalize 53 1024 (Z.of_nat n) 0 false) cell).

(** Doubles that are numbers *)
Definition is_double (x : spec_float) : Prop := is_number 53 1024 x.
(** The sides of the box are whole numbers of cells of a size, and these sizes are doubles. *)
Definition regular (b : box) (f : field) : Prop :=
  is_double (west b) /\ is_double (east b) /\ is_double (south b) /\ is_double (north b) /\
  exists cell w h, is_double cell /\ is_double w /\ is_double h /\ 0 < fvalue Double cell /\
    fvalue Double w = Z.of_nat (cols f) * fvalue Double cell /\
    fvalue Double h = Z.of_nat (rows f) * fvalue Double cell /\
    fvalue Double (east b) = fvalue Double (west b) + fvalue Double w /\
    fvalue Double (north b) = fvalue Double (south b) + fvalue Double h.
(** The same box *)
Definition same_box (a b : box) : Prop :=
  fvalue Double (west a) = fvalue Double (west b) /\ fvalue Double (east a) = fvalue Double (east b) /\
  fvalue Double (south a) = fvalue Double (south b) /\ fvalue Double (north a) = fvalue Double (north b).

(** The element in a row and a column *)
Definition at_ {A} (l : list A) (columns r c : nat) : option A := nth_error l (r * columns + c)%nat.

(** Whether there is something in a cell that is masked: what the mask of an image says of a cell
    that holds [n] *)
Definition mask_of_cell (stands_for : num -> spec_float -> bool) (m : masking) (columns r c : nat) (n : num) : bool :=
  match m with
  | AllValid => false
  | NoDataValue v => stands_for n v
  | Bytes m | Alpha m => match at_ m columns r c with Some 0 => true | _ => false end
  end.
