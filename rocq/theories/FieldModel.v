(** * Fields in raster files, as scripts read and write them

    Models [language/io/gdal/gdal_dataset.cc].

    Trusted is what GDAL does: a file keeps the number of its bands, the type, the sizes, the
    transformation (if its format has one), the cells and the mask of its first band; [RasterIO]
    copies a window of cells row by row and fails if that is not within the band; [Create] replaces
    a file, its cells are zero and none is masked, and it fails if there is no cell; values that
    stand for no data are masked; a mask band that is created takes the place of these.
    Simplifications: drivers can create files and set transformations; sizes fit an [int]; what has
    been written is in the file at once; what is left of a file if the program aborts is not
    modelled.  A masked array is the list of its values and that of its mask; the functions that
    convert masks are proved in C56. *)
From Coq Require Import String ZArith List Bool SpecFloat Ascii.
From Verif Require Import IntsModel ArithModel FloatModel StringModel FeatureModel RasterModel FileModel StoreModel DriverModel.
Import ListNotations.
Open Scope Z_scope.

(** [GetMaskFlags] and the mask band *)
Inductive masking := AllValid | NoDataValue (v : spec_float) | Bytes (m : list Z) | Alpha (m : list Z).
Record image := Image {
  bands : nat;
  type : gtype;
  height : nat; width : nat;
  placed : option transformation;
  pixels : list num;
  mask_of : masking }.
Definition images := text -> option image.
Definition set_image (fs : images) (name : text) (i : option image) : images :=
  fun n => if same_text n name then i else fs n.

(** d2::Box, attributes.h:91 *)
Record box := Box { west : spec_float; south : spec_float; east : spec_float; north : spec_float }.
(** FieldValue, masked_array.h:28-87 *)
Record field := Field { rows : nat; cols : nat; values : list num; masked : list bool }.
(** Attributes: a number, or a FieldAttribute with its geometries and values
    (spatial_attribute.h:63-65) *)
Inductive attribute := Constant (n : num) | Fields (t : vty) (l : list (box * field)).

(** core/path.cc:33-36, std::filesystem::path::stem as specified for POSIX: the file name without
    what is behind its last period, unless that is its first character *)
Fixpoint before_period (t : text) : option text :=
  match t with
  | [] => None
  | c :: t' =>
      match before_period t' with
      | Some s => Some (c :: s)
      | None => if Ascii.eqb c "." then Some [] else None
      end
  end.
Definition stem (name : text) : text :=
  let f := filename name in
  if same_text f (lit "..") then f else
  match before_period f with Some (c :: s) => c :: s | _ => f end.

(** dataset.h, gdal_dataset.h: the name, the mode and whether [_dataset] points to something *)
Record dataset := Dataset { name : text; opened_for : mode; opened : bool }.

(** gdal_dataset.cc:264-282 *)
Definition contains_feature (d : dataset) (p : path) : bool := same_path p [stem (name d)].
Definition contains_attribute (d : dataset) (p : path) : bool := same_path [stem (name d); stem (name d)] p.

(** gdal_dataset.cc:25-98, 199-226 *)
Definition open (fs : images) (n : text) (m : mode) : images * outcome dataset :=
  match m with
  | Read | Update =>
      match fs n with
      | Some _ => (fs, Done (Dataset n m true))
      | None => (fs, Thrown)
      end
  | Overwrite => (set_image fs n None, Done (Dataset n m false))
  end.

Definition minus (x y : spec_float) : spec_float := SFsub (fprec Double) (femax Double) x y.
Definition plus (x y : spec_float) : spec_float := SFadd (fprec Double) (femax Double) x y.
Definition times (x y : spec_float) : spec_float := SFmul (fprec Double) (femax Double) x y.
Definition over (x y : spec_float) : spec_float := SFdiv (fprec Double) (femax Double) x y.
(** An [int] as [double] *)
Definition double (n : nat) : spec_float := to_format Double (NInt S32 (Z.of_nat n)).

Section Gdal.
Variable debug : bool.
(** Library functions of GDAL: what [RasterIO] makes of a number if it has to convert it to another
    type; which cells have the value that stands for no data; the contents of a mask band when it is
    created; and whether one can be created if there is one. *)
Variables (convert : vty -> num -> num) (stands_for : num -> spec_float -> bool) (fresh : Z) (again : bool).

(** The bytes of the mask band: [None] if [GMF_ALL_VALID] is set *)
Definition mask_bytes (i : image) : option (list Z) :=
  match mask_of i with
  | AllValid => None
  | NoDataValue v => Some (map (fun n => if stands_for n v then 0 else 255) (pixels i))
  | Bytes m | Alpha m => Some m
  end.

(** [RasterIO(GF_Write, 0, 0, c, r, ...)] of cells [new] into a band of [h] rows and [w] columns:
    [None] if the window is not within the band *)
Definition raster_io {A} (new old : list A) (r c h w : nat) : option (list A) :=
  if Nat.leb r h && Nat.leb c w then
    Some (concat (map (fun i =>
            firstn c (skipn (i * c) (if Nat.ltb i r then new else [])) ++
            skipn (if Nat.ltb i r then c else 0%nat) (firstn w (skipn (i * w) old)))
          (List.seq 0 h)))
  else None.

(** gdal_dataset.cc:101-124 *)
Definition zero_of (t : vty) : num :=
  match t with
  | VInt t => NInt t 0
  | VFloat32 => NFloat Single (S754_zero false)
  | VBool => NInt U8 0
  | VFloat64 => NFloat Double (S754_zero false)
  end.
Definition create (t : vty) (g : gtype) (f : field) : option image :=
  if Nat.eqb (rows f) 0 || Nat.eqb (cols f) 0 then None
  else Some (Image 1 g (rows f) (cols f) None (repeat (zero_of t) (rows f * cols f)) AllValid).

(** gdal_dataset.cc:599-614 *)
Definition transformation_of (b : box) (f : field) : transformation :=
  Transformation (west b) (over (minus (east b) (west b)) (double (cols f))) (S754_zero false)
    (north b) (S754_zero false) (over (minus (north b) (south b)) (double (rows f))).

Definition converted (g : gtype) (n : num) : num :=
  match value_type_of g with Some t => buffered convert t n | None => n end.

(** gdal_dataset.cc:616-653: into an image that exists; the image is changed also if there is an
    exception *)
Definition write_values (b : box) (f : field) (i : image) : image * outcome unit :=
  let i := Image (bands i) (type i) (height i) (width i) (Some (transformation_of b f)) (pixels i) (mask_of i) in
  match raster_io (map (converted (type i)) (values f)) (pixels i) (rows f) (cols f) (height i) (width i) with
  | None => (i, Thrown)
  | Some px =>
      let i := Image (bands i) (type i) (height i) (width i) (placed i) px (mask_of i) in
      if existsb (fun m => m) (masked f) then
        let m :=
          match mask_of i with
          | Bytes m => if again then Some m else None
          | _ => Some (repeat fresh (height i * width i))
          end in
        match m with
        | None => (i, Thrown)
        | Some m =>
            let bytes := map (fun m : bool => if m then 0 else 255) (masked f) in
            match raster_io bytes m (rows f) (cols f) (height i) (width i) with
            | None => (i, Thrown)
            | Some m => (Image (bands i) (type i) (height i) (width i) (placed i) px (Bytes m), Done tt)
            end
        end
      else (i, Done tt)
  end.

(** gdal_dataset.cc:569-653 *)
Definition write_field (fs : images) (d : dataset) (t : vty) (g : gtype) (l : list (box * field)) (p : path)
    : images * outcome dataset :=
  let ready := match opened_for d with Update => opened d | Overwrite => negb (opened d) | Read => false end in
  if debug && negb ready then (fs, Aborted) else
  match opened_for d with
  | Read => (fs, Undefined)   (* what GDAL does then is left open *)
  | _ =>
      match l with
      | [] => (fs, if debug then Aborted else Undefined)
      | (b, f) :: more =>
          if debug && match more with [] => false | _ => true end then (fs, Aborted) else
          match (if negb (opened d) then create t g f else fs (name d)) with
          | None => (fs, if negb (opened d) then Thrown else Undefined)
          | Some i =>
              let geo := transformation_of b f in
              if debug && negb (match p with [] => false | _ => contains_feature d (removelast p) end &&
                                contains_attribute d p && Nat.eqb (bands i) 1 &&
                                SFltb (S754_zero false) (g1 geo) && SFeqb (g1 geo) (g5 geo))
              then (fs, Aborted)
              else if Nat.eqb (bands i) 0 then (fs, Undefined)
              else
                let (i', o) := write_values b f i in
                (set_image fs (name d) (Some i'), _ <~ o ;; Done (Dataset (name d) (opened_for d) true))
          end
      end
  end.

(** gdal_dataset.cc:665-699 *)
Definition write_attribute (fs : images) (d : dataset) (a : attribute) (p : path) : images * outcome dataset :=
  match a with
  | Constant _ => (fs, failed_assertion debug (Done d))
  | Fields t l =>
      match gdal_type_of t with
      | Some g => write_field fs d t g l p
      | None => (fs, failed_assertion debug (Done d))
      end
  end.

(** gdal_dataset.cc:390-460 *)
Definition default_transformation : transformation :=
  Transformation (S754_zero false) (double 1) (S754_zero false) (S754_zero false) (S754_zero false) (double 1).
Definition box_of (g : transformation) (h w : nat) : box :=
  Box (g0 g) (minus (g3 g) (times (double h) (g1 g))) (plus (g0 g) (times (double w) (g1 g))) (g3 g).
Definition read_values (i : image) (t : vty) : outcome attribute :=
  let g := match placed i with Some g => g | None => default_transformation end in
  assert debug (SFeqb (g1 g) (SFabs (g5 g)))
  (assert debug (match mask_of i with Alpha _ => false | _ => true end)
  (Done (Fields t [(box_of g (height i) (width i),
     Field (height i) (width i) (pixels i)
       (match mask_bytes i with
        | Some m => map (fun b => b =? 0) m
        | None => repeat false (height i * width i)
        end))]))).

(** gdal_dataset.cc:285-306: which type an attribute will be of; [None] in it: none *)
Definition expression_type (fs : images) (d : dataset) (p : path) : outcome (option vty) :=
  assert debug (opened d)
  (if contains_attribute d p then
     if opened d then
       match fs (name d) with
       | None => Undefined
       | Some i =>
           assert debug (Nat.eqb (bands i) 1)
           (if Nat.eqb (bands i) 0 then Undefined
            else match value_type_of (type i) with
                 | Some t => Done (Some t)
                 | None => failed_assertion debug (Done None)
                 end)
       end
     else Undefined
   else Thrown).

(** gdal_dataset.cc:463-480, 501-524, 537-566 *)
Definition read_attribute (fs : images) (d : dataset) (p : path) : outcome attribute :=
  assert debug (opened d)
  (if contains_attribute d p then
     if opened d then
       match fs (name d) with
       | None => Undefined
       | Some i =>
           assert debug (Nat.eqb (bands i) 1)
           (if Nat.eqb (bands i) 0 then Undefined
            else match value_type_of (type i) with
                 | Some t => read_values i t
                 | None => Thrown
                 end)
       end
     else Undefined
   else Thrown).

(** gdal_dataset.cc:370-387: the attributes of the feature, by their names *)
Definition read_feature (fs : images) (d : dataset) (p : path) : outcome (list (text * attribute)) :=
  if contains_feature d p then
    let q := p ++ [stem (name d)] in
    assert debug (contains_attribute d q)
    (a <~ read_attribute fs d q ;; Done [(stem (name d), a)])
  else Thrown.
End Gdal.
