(** * Files of rasters, read and written from Python

    Models [python/io/gdal.cc] and [io/gdal/{read.h,detail/read.h,dataset.cc}].

    Trusted is what GDAL does: a file keeps the type, the sizes, the transformation, the no-data
    value and the cells of its first band, [RasterIO] copies all cells row by row, and [Create]
    replaces a file.  Simplifications: files have a band; drivers can create files; sizes fit an
    [int]; files do not change while they are read. *)
From Coq Require Import ZArith List Bool SpecFloat Ascii.
From Verif Require Import IntsModel ArithModel FloatModel StringModel RasterModel.
Import ListNotations.
Open Scope Z_scope.

(** GDALDataType.  [GOther]: complex numbers, unknown *)
Inductive gtype := GByte | GUInt16 | GInt16 | GUInt32 | GInt32 | GFloat32 | GFloat64 | GOther.
(** gdal.cc:25-48 *)
Definition value_type_of (g : gtype) : option vty :=
  match g with
  | GByte => Some (VInt U8)
  | GUInt16 => Some (VInt U16)
  | GInt16 => Some (VInt S16)
  | GUInt32 => Some (VInt U32)
  | GInt32 => Some (VInt S32)
  | GFloat32 => Some VFloat32
  | GFloat64 => Some VFloat64
  | GOther => None
  end.
(** gdal.cc:51-71, io/gdal/value_type_traits.h: [ValueTypeTraits<T>::gdal_value_type] *)
Definition gdal_type_of (t : vty) : option gtype :=
  match t with
  | VInt U8 => Some GByte
  | VInt U16 => Some GUInt16
  | VInt S16 => Some GInt16
  | VInt U32 => Some GUInt32
  | VInt S32 => Some GInt32
  | VFloat32 => Some GFloat32
  | VFloat64 => Some GFloat64
  | _ => None
  end.

(** [GetGeoTransform]: six doubles *)
Record transformation := Transformation { g0 : spec_float; g1 : spec_float; g2 : spec_float; g3 : spec_float; g4 : spec_float; g5 : spec_float }.
Record file := File {
  band_type : gtype;
  y_size : nat; x_size : nat;
  transform : transformation;
  no_data : option spec_float;
  cells : list num }.
(** [None]: there is no such file, or it cannot be opened as a raster. *)
Definition files := text -> option file.

Section Gdal.
Variables debug : bool.
(** What [GetNoDataValue] returns if there is no such value (this depends on the driver), and what
    [RasterIO] makes of a number if it has to convert it to another type *)
Variables (unset : spec_float) (convert : vty -> num -> num).

Definition buffered (t : vty) (n : num) : num := if same_type (vty_of n) t then n else convert t n.

(** [==] of two numbers of one type *)
Definition equal_cells (n m : num) : bool :=
  match n, m with
  | NInt _ z, NInt _ y => z =? y
  | NFloat _ x, NFloat _ y => SFeqb x y
  | _, _ => false
  end.
(** detail/read.h:91-98 *)
Definition read_cell (dst : nat) (m : num) (i : nat) (h : heap) : outcome heap :=
  n <~ get debug h dst i ;;
  if equal_cells n m then mark debug h dst i else Done h.

(** detail/read.h:33-103, dataset.cc:26-47: [read]; the file is that of the database *)
Definition read (fs : files) (database : text) (t : vty) (dst : nat) (h : heap) : outcome heap :=
  match fs database with
  | None => Thrown
  | Some f =>
      r <~ deref h dst ;;
      assert debug (Nat.eqb (rows r) (y_size f) && Nat.eqb (cols r) (x_size f))
      (assert debug (match value_type_of (band_type f) with Some t' => same_type t' t | None => false end)
      (let free := (rows r * cols r - y_size f * x_size f)%nat in
       if Nat.leb (y_size f * x_size f) (rows r * cols r) then
         let h' := replace h dst (Raster t (rows r) (cols r) (origin r) (cell_sizes r)
                     (Some (map (fun n => Some (buffered t n)) (cells f) ++ repeat None free))) in
         match static_cast t (NFloat Double (match no_data f with Some d => d | None => unset end)) with
         | None => Undefined
         | Some m =>
             match no_data f with
             | None => Done h'
             | Some _ => loop (read_cell dst m) (indices (rows r) (cols r)) h'
             end
         end
       else Undefined))
  end.

(** gdal.cc:76-120: [read_raster(pathname)].  The file is opened by its name first, and then by the
    database part of that name (data_name.cc:34-72). *)
Definition read_raster (h : heap) (fs : files) (name : text) : outcome returned :=
  match fs name with
  | None => Thrown
  | Some f =>
      match value_type_of (band_type f) with
      | None => failed_assertion debug (Done (h, None))
      | Some t =>
          let g := transform f in
          let h' := h ++ [Raster t (y_size f) (x_size f) (g0 g, g3 g) (g1 g, g5 g)
                            (Some (repeat None (y_size f * x_size f)))] in
          match data_name name with
          | None => failed_assertion debug Thrown
          | Some (database, _) =>
              h'' <~ read fs database t (length h) h' ;;
              Done (h'', Some (length h))
          end
      end
  end.

Fixpoint assigned (l : list (option num)) : option (list num) :=
  match l with
  | [] => Some []
  | Some n :: l => option_map (cons n) (assigned l)
  | None :: _ => None
  end.
Definition same_name (a b : text) : bool := if list_eq_dec ascii_dec a b then true else false.

(** gdal.cc:122-220: [write_raster(raster, name, format)] *)
Definition write_raster (h : heap) (fs : files) (a : nat) (name : text) : outcome files :=
  r <~ deref h a ;;
  match gdal_type_of (value_type r), no_data_value (value_type r) with
  | Some g, Some nd =>
      l <~ typed h a (value_type r) ;;
      match data l with
      | Some cs =>
          match assigned cs with
          | Some cs =>
              let zero := S754_zero false in
              Done (fun n => if same_name n name then
                      Some (File g (rows l) (cols l)
                              (Transformation (fst (origin l)) (fst (cell_sizes l)) zero
                                 (snd (origin l)) zero (snd (cell_sizes l)))
                              (Some (to_format Double nd)) cs)
                    else fs n)
          | None => Undefined
          end
      | None => Undefined
      end
  | _, _ => failed_assertion debug (Done fs)
  end.
End Gdal.
