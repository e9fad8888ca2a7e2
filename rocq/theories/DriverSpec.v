(** * Which driver opens a dataset, and what names of data denote *)
From Coq Require Import List Bool Ascii.
From Verif Require Import ArithModel FloatModel StringModel RasterModel StoreModel DriverModel.
Import ListNotations.

(** The drivers that may open a dataset, best first: the one that was asked for, or else the one for
    Fern datasets and then the others, in their order *)
Definition candidates (drivers : list text) (format : text) (ds : list text) : Prop :=
  (format <> [] /\ In format drivers /\ ds = [format]) \/
  (format = [] /\
   ((exists before after, drivers = before ++ fern_name :: after /\ ds = fern_name :: before ++ after) \/
    (~ In fern_name drivers /\ ds = drivers))).

(** A driver is able to open a file, for reading or for update. *)
Definition able (may_read may_write : text -> bool) (recognises updates : text -> content -> bool)
    (fs : files) (name : text) (m : mode) (d : text) : Prop :=
  (d = fern_name /\ (exists t, fs name = Some (Fern t)) /\ may_read name = true /\
     (m = Update -> may_write name = true)) \/
  (d <> fern_name /\ exists c, fs name = Some c /\
     (m = Read -> recognises d c = true) /\ (m = Update -> updates d c = true)).

(** The first that is able *)
Definition first_able (able : text -> Prop) (ds : list text) (d : text) : Prop :=
  exists before after, ds = before ++ d :: after /\ able d /\ forall e, In e before -> ~ able e.

(** The name of data means a path in a file (see C53). *)
Definition denotes (name database : text) (p : path) : Prop :=
  exists data, data_name name = Some (database, data) /\ names data = p.

Definition unchanged_but (fs fs' : files) (name : text) : Prop :=
  forall other, other <> name -> fs' other = fs other.
