(** * What convolution is expected to compute

    Everything here is about cells [(row, column)] of the image and of the kernel; nothing
    depends on the regions in which fern divides the image. *)
From Coq Require Import ZArith List Bool.
From Verif Require Import LangModel IndexModel IndexSpec LoopSpec PolicyModel LocalSpec
  ConvolveModel.
Import ListNotations.
Open Scope Z_scope.

Section ConvolveSpec.
Context {V W SV SW : Type}.
Variable ar : arith V W SV SW.
Variables (ip : inpol V) (src : buf) (rows cols : Z) (k : kernel W).
Variables (alt : alternative) (oi : out_of_image) (keep : bool).
Variable m : mem V.

Definition in_image (c : Z * Z) : bool :=
  (0 <=? fst c) && (fst c <? rows) && ((0 <=? snd c) && (snd c <? cols)).

(** The value of a cell of the image, unless it is no-data. *)
Definition value_at (c : Z * Z) : option V := arg_at ip src m (linear cols c).

Definition listed {A} (o : option A) : list A := match o with Some x => [x] | None => [] end.

(** The cells of the image that touch cell [c], which need not be in the image. *)
Definition same_cell (c d : Z * Z) : bool := (fst c =? fst d) && (snd c =? snd d).
Definition neighbours (c : Z * Z) : list (Z * Z) :=
  filter (fun d => in_image d && negb (same_cell d c))
    (let '(i, j) := c in
     [(i - 1, j - 1); (i - 1, j); (i - 1, j + 1);
      (i, j - 1);     (i, j);     (i, j + 1);
      (i + 1, j - 1); (i + 1, j); (i + 1, j + 1)]).

(** The average of the valid neighbours, if there are any. *)
Definition focal_average (c : Z * Z) : option V :=
  match flat_map (fun d => listed (value_at d)) (neighbours c) with
  | [] => None
  | l => Some (average ar (fold_left (add ar) l (zero_v ar)) (Z.of_nat (length l)))
  end.

(** The cells of the kernel in row-major order, their weights, and the cell of the image that
    is below kernel cell [q] if the kernel is centred on [f]. *)
Definition kernel_cells : list (Z * Z) := raster_cells (width k) (width k).
Definition weight_at (q : Z * Z) : W := weights k (linear (width k) q).
Definition below (f q : Z * Z) : Z * Z :=
  (fst f + fst q - radius k, snd f + snd q - radius k).

(** The kernel does not extend beyond the image. *)
Definition inner (f : Z * Z) : bool :=
  (radius k <=? fst f) && (fst f <? rows - radius k) &&
  ((radius k <=? snd f) && (snd f <? cols - radius k)).

(** What a kernel cell contributes: a value and a weight, or nothing. *)
Definition contribution_outside (f q : Z * Z) : option (V * W) :=
  match oi with
  | SkipOutOfImage => None
  | OutOfImageByFocalAverage =>
      option_map (fun v => (v, weight_at q)) (focal_average (below f q))
  end.

(** No-data below a false weight is ignored by boolean kernels, but only if the kernel does
    not extend beyond the image. *)
Definition ignored (f q : Z * Z) : bool :=
  inner f && negb (weigh_values k) && negb (nonzero ar (weight_at q)).

Definition contribution_inside (f q : Z * Z) : option (V * W) :=
  match value_at (below f q) with
  | Some v => if nonzero ar (weight_at q) then Some (v, weight_at q) else None
  | None =>
      if ignored f q then None else
      match alt with
      | SkipNoDataCells => None
      | NoDataByFocalAverage =>
          option_map (fun v => (v, weight_at q)) (focal_average (below f q))
      end
  end.

(** All contributions: first those from outside of the image, then those from inside. *)
Definition contributions (f : Z * Z) : list (V * W) :=
  flat_map (fun q => if in_image (below f q) then [] else listed (contribution_outside f q))
    kernel_cells ++
  flat_map (fun q => if in_image (below f q) then listed (contribution_inside f q) else [])
    kernel_cells.

(** The sum of the weighted values and the sum of the weights. *)
Definition total (l : list (V * W)) : SV * SW :=
  if weigh_values k then
    (fold_left (fun s x => add_scaled ar s (fst x) (snd x)) l (zero_v ar),
     fold_left (fun s x => add_weight ar s (snd x)) l (zero_w ar))
  else
    let l' := filter (fun x => nonzero ar (snd x)) l in
    (fold_left (fun s x => add ar s (fst x)) l' (zero_v ar),
     fold_left (fun s _ => add_one ar s) l' (zero_w ar)).

(** The result at focus cell [f]; [None] is no-data. *)
Definition convolved (f : Z * Z) : option V :=
  if keep && nd_at ip m (linear cols f) then None else
  match contributions f with
  | [] => None
  | l =>
      let '(sv, sw) := total l in
      if in_range ar sv then Some (normalize ar sv sw) else None
  end.

(** Whenever a no-data value is to be replaced by the focal average, there is one. *)
Definition replaceable : Prop :=
  alt = NoDataByFocalAverage ->
  forall f q, in_image f = true -> keep && nd_at ip m (linear cols f) = false ->
    In q kernel_cells -> in_image (below f q) = true -> ignored f q = false ->
    value_at (below f q) = None -> focal_average (below f q) <> None.

(** The image is large enough for the kernel and the out of image policy. *)
Definition large_enough : Prop :=
  0 <= radius k /\ rows < 2 ^ 64 /\ cols < 2 ^ 64 /\
  match oi with
  | SkipOutOfImage => 2 * radius k <= rows /\ 2 * radius k <= cols
  | OutOfImageByFocalAverage => 2 * radius k < rows /\ 2 * radius k < cols
  end.

(** Source and destination exist, and are stored apart. *)
Definition stored_apart (op : outpol V) (dst : buf) : Prop :=
  (forall i, 0 <= i < rows * cols -> arg_exists ip src m i /\ result_exists op dst m i) /\
  src <> dst /\ policy_apart ip op dst /\ marks_result op dst.
End ConvolveSpec.

(** The nine regions of the image, in the order in which they are visited: intervals of rows
    and of columns.  [low_part], [mid_part] and [high_part] are the first [r], the middle and the last [r]. *)
Section Regions.
Variables (rows cols r : Z).
Definition low_part : range := {| rbegin := 0; rend := r |}.
Definition mid_part (n : Z) : range := {| rbegin := r; rend := n - r |}.
Definition high_part (n : Z) : range := {| rbegin := n - r; rend := n |}.
Definition regions : list block2 :=
  [(low_part, low_part); (low_part, high_part cols); (high_part rows, low_part); (high_part rows, high_part cols);
   (low_part, mid_part cols); (mid_part rows, low_part); (mid_part rows, high_part cols); (high_part rows, mid_part cols);
   (mid_part rows, mid_part cols)].
End Regions.
