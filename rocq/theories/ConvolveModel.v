(** * Convolution

    Models [algorithm/convolution/detail/convolve.h], the policies
    [algorithm/convolution/{skip_no_data,replace_no_data_by_focal_average,skip_out_of_image,
    replace_out_of_image_by_focal_average,keep_no_data_focus_element,
    replace_no_data_focus_element}.h] and the kernels
    [algorithm/convolution/neighborhood/{square,kernel}{,_traits}.h].

    Simplifications: the arithmetic on values and weights is a parameter ([arith]); it need
    not be associative or commutative, so floating point arithmetic is one.  Subtractions on
    [size_t] wrap ([size_t], IndexModel.v); indices of existing elements are integers (see
    LangModel.v).  The body of the loops on focus cells is repeated literally in the nine
    functions; it is modelled once, as [focus]. *)

From Coq Require Import ZArith List Bool.
From Verif Require Import LangModel ConcModel IndexModel LoopModel PolicyModel CoreModel.
Import ListNotations.
Open Scope Z_scope.
Open Scope prog_scope.

(** The operations on values ([V]), weights ([W]), sums of values ([SV]) and sums of weights
    ([SW]); convolve.h:133-147. *)
Record arith (V W SV SW : Type) := {
  zero_v : SV;                        (** [AccumulationTraits<V>::zero] *)
  zero_w : SW;                        (** [AccumulationTraits<W>::zero] *)
  add : SV -> V -> SV;                (** [sum_of_values += value] *)
  add_scaled : SV -> V -> W -> SV;    (** [sum_of_values += value * weight] *)
  add_weight : SW -> W -> SW;         (** [sum_of_weights += weight] *)
  add_one : SW -> SW;                 (** [sum_of_weights += 1] *)
  nonzero : W -> bool;                (** [is_not_equal(weight, W{0})] *)
  average : SV -> Z -> V;             (** [sum / static_cast<Value>(count)] *)
  in_range : SV -> bool;              (** [OORP::within_range(sum_of_values)] *)
  normalize : SV -> SW -> V           (** [NP::normalize], as assigned to the destination *)
}.
Arguments zero_v {V W SV SW}. Arguments zero_w {V W SV SW}. Arguments add {V W SV SW}.
Arguments add_scaled {V W SV SW}. Arguments add_weight {V W SV SW}.
Arguments add_one {V W SV SW}. Arguments nonzero {V W SV SW}. Arguments average {V W SV SW}.
Arguments in_range {V W SV SW}. Arguments normalize {V W SV SW}.

(** A square kernel; square.h:22-53, kernel.h:17-65.  [weigh_values] is
    [KernelTraits<Kernel>::weigh_values] (kernel_traits.h:19-22): false if the weights are
    booleans. *)
Record kernel (W : Type) := {
  radius : Z;
  weights : Z -> W;
  weigh_values : bool
}.
Arguments radius {W}. Arguments weights {W}. Arguments weigh_values {W}.

(** square.h:49, kernel.h:75; the number of rows and of columns *)
Definition width {W} (k : kernel W) : Z := 2 * radius k + 1.

(** [AlternativeForNoDataPolicy], [OutOfImagePolicy] *)
Inductive alternative := SkipNoDataCells | NoDataByFocalAverage.
Inductive out_of_image := SkipOutOfImage | OutOfImageByFocalAverage.

(** The function of the out of image policy that a border region calls. *)
Inductive side :=
| NorthWest | NorthEast | SouthWest | SouthEast | North | West | East | South.

(** The part of the kernel that overlaps the image, and where; convolve.h:123-129. *)
Record window := {
  first_row_kernel : Z; first_col_kernel : Z;
  nr_rows_kernel : Z; nr_cols_kernel : Z;
  first_row_source : Z; first_col_source : Z
}.

Section Convolve.
Context {V W SV SW : Type}.
Variable ar : arith V W SV SW.
Variables (ip : inpol V) (op : outpol V) (src dst : buf).
Variables (rows cols : Z).      (** [size(source, 0)], [size(source, 1)] *)
Variable k : kernel W.
Variable alt : alternative.
Variable oi : out_of_image.
Variable keep_no_data : bool.   (** [NoDataFocusElementPolicy::keep_no_data] *)

(** square_traits.h:102-107 and kernel_traits.h:91-96 [get], with the assertion *)
Definition weight (i : Z) : prog V W :=
  if (0 <=? i) && (i <? width k * width k) then Ret (weights k i) else UB.

(** [sum_of_values], [sum_of_weights], [value_seen] *)
Definition sums : Type := (SV * SW * bool)%type.

(** convolve.h:57-99 [HandleValue], followed by [value_seen = true] *)
Definition handle_value (v : V) (w : W) (s : sums) : sums :=
  let '(sv, sw, _) := s in
  if weigh_values k then (add_scaled ar sv v w, add_weight ar sw w, true)
  else if nonzero ar w then (add ar sv v, add_one ar sw, true)
  else (sv, sw, true).

(** ** Focal averages *)

(** The loops shared by the policies, e.g. replace_out_of_image_by_focal_average.h:185-203,
    and replace_no_data_by_focal_average.h:61-76 where one cell is skipped: the sum and the
    number of the valid values in a rectangle of cells.  [skip_cell] is the skipped cell. *)
Definition scan (skip_cell : Z -> Z -> bool) (row last_row col last_col : Z)
  : prog V (SV * Z) :=
  fold_range row (last_row + 1) (fun r acc =>
    x <- fold_range col (last_col + 1) (fun c (x : SV * Z * Z) =>
           let '(sum, seen, index_) := x in
           if skip_cell r c then Ret (sum, seen, index_ + 1)
           else
             ifp (is_no_data ip index_) (Ret (sum, seen, index_ + 1))
               (v <- rdv src index_ ;; Ret (add ar sum v, seen + 1, index_ + 1)))
         (acc, r * cols + col) ;;
    Ret (fst x)) (zero_v ar, 0).

(** replace_out_of_image_by_focal_average.h:272-276 and the same lines elsewhere *)
Definition average_if_seen (s : SV * Z) : prog V (option V) :=
  Ret (if 0 <? snd s then Some (average ar (fst s) (snd s)) else None).

Definition scan_all (row last_row col last_col : Z) : prog V (option V) :=
  s <- scan (fun _ _ => false) row last_row col last_col ;; average_if_seen s.

(** replace_no_data_by_focal_average.h:40-88 *)
Definition no_data_by_focal_average (row col : Z) : prog V (option V) :=
  let first_row := if 0 <? row then row - 1 else row in
  let first_col := if 0 <? col then col - 1 else col in
  let last_row := if row <? size_t (rows - 1) then row + 1 else row in
  let last_col := if col <? size_t (cols - 1) then col + 1 else col in
  s <- scan (fun r c => (r =? row) && (c =? col)) first_row last_row first_col last_col ;;
  if 0 <? snd s then Ret (Some (average ar (fst s) (snd s))) else UB.

(** skip_no_data.h:46-56 *)
Definition alternative_value (row col : Z) : prog V (option V) :=
  match alt with
  | SkipNoDataCells => Ret None
  | NoDataByFocalAverage => no_data_by_focal_average row col
  end.

(** replace_out_of_image_by_focal_average.h; [kr] and [kc] are [out_of_image_kernel_row] and
    [out_of_image_kernel_col]; the local constant [radius] is 1. *)
Section OutOfImage.
Variables (w : window) (kr kc : Z).
Let frk := first_row_kernel w.
Let fck := first_col_kernel w.
Let frs := first_row_source w.
Let fcs := first_col_source w.
Let last_row_kernel := size_t (frk + nr_rows_kernel w - 1).
Let last_col_kernel := size_t (fck + nr_cols_kernel w - 1).
Let last_row_source := size_t (rows - 1).
Let last_col_source := size_t (cols - 1).

(** lines 152-277 *)
Definition value_north_west : prog V (option V) :=
  if kr <? frk then
    if kc <? fck then
      if (frk - kr <=? 1) && (fck - kc <=? 1) then
        scan_all frs (1 - (frk - kr)) fcs (1 - (fck - kc))
      else Ret None
    else
      if frk - kr <=? 1 then
        scan_all frs (1 - (frk - kr))
          (if 1 <=? kc - fck then kc - fck - 1 else 0) (kc - fck + 1)
      else Ret None
  else
    if kc <? fck then
      if fck - kc <=? 1 then
        scan_all (if 1 <=? kr - frk then kr - frk - 1 else 0) (kr - frk + 1)
          fcs (1 - (fck - kc))
      else Ret None
    else UB.

(** lines 285-417 *)
Definition value_north_east : prog V (option V) :=
  if kr <? frk then
    if last_col_kernel <? kc then
      if (frk - kr <=? 1) && (kc - last_col_kernel <=? 1) then
        scan_all frs (1 - (frk - kr))
          (size_t (last_col_source + (kc - last_col_kernel - 1))) last_col_source
      else Ret None
    else
      if frk - kr <=? 1 then
        let col_source := fcs + kc in
        scan_all frs (1 - (frk - kr))
          (size_t (col_source - 1)) (Z.min (col_source + 1) last_col_source)
      else Ret None
  else
    if last_col_kernel <? kc then
      if kc - last_col_kernel <=? 1 then
        scan_all (if 1 <=? kr - frk then kr - frk - 1 else 0) (kr - frk + 1)
          (size_t (last_col_source + (kc - last_col_kernel - 1))) last_col_source
      else Ret None
    else UB.

(** lines 425-558 *)
Definition value_south_west : prog V (option V) :=
  if last_row_kernel <? kr then
    if kc <? fck then
      if (kr - last_row_kernel <=? 1) && (fck - kc <=? 1) then
        scan_all (size_t (last_row_source + (kr - last_row_kernel - 1))) last_row_source
          fcs (1 - (fck - kc))
      else Ret None
    else
      if kr - last_row_kernel <=? 1 then
        scan_all (size_t (last_row_source + (kr - last_row_kernel - 1))) last_row_source
          (if 1 <=? kc - fck then kc - fck - 1 else 0) (kc - fck + 1)
      else Ret None
  else
    if kc <? fck then
      if fck - kc <=? 1 then
        let row_source := frs + kr in
        scan_all (size_t (row_source - 1)) (Z.min (row_source + 1) last_row_source)
          fcs (1 - (fck - kc))
      else Ret None
    else UB.

(** lines 566-701 *)
Definition value_south_east : prog V (option V) :=
  if last_row_kernel <? kr then
    if last_col_kernel <? kc then
      if (kr - last_row_kernel <=? 1) && (kc - last_col_kernel <=? 1) then
        scan_all (size_t (last_row_source + (kr - last_row_kernel - 1))) last_row_source
          (size_t (last_col_source + (kc - last_col_kernel - 1))) last_col_source
      else Ret None
    else
      if kr - last_row_kernel <=? 1 then
        let col_source := fcs + kc in
        scan_all (size_t (last_row_source + (kr - last_row_kernel - 1))) last_row_source
          (size_t (col_source - 1)) (Z.min (col_source + 1) last_col_source)
      else Ret None
  else
    if last_col_kernel <? kc then
      if kc - last_col_kernel <=? 1 then
        let row_source := frs + kr in
        scan_all (size_t (row_source - 1)) (Z.min (row_source + 1) last_row_source)
          (size_t (last_col_source + (kc - last_col_kernel - 1))) last_col_source
      else Ret None
    else UB.

(** lines 709-767 *)
Definition value_north : prog V (option V) :=
  if kr <? frk then
    if frk - kr <=? 1 then
      let col_source := fcs + kc in
      scan_all frs (1 - (frk - kr))
        (if col_source <? 1 then 0 else col_source - 1)
        (Z.min (col_source + 1) last_col_source)
    else Ret None
  else UB.

(** lines 775-831 *)
Definition value_west : prog V (option V) :=
  if kc <? fck then
    let row_source := frs + kr in
    if fck - kc <=? 1 then
      scan_all (if row_source <? 1 then 0 else row_source - 1)
        (Z.min (row_source + 1) last_row_source)
        fcs (1 - (fck - kc))
    else Ret None
  else UB.

(** lines 839-898 *)
Definition value_east : prog V (option V) :=
  if last_col_kernel <? kc then
    let row_source := frs + kr in
    if kc - last_col_kernel <=? 1 then
      scan_all (if row_source <? 1 then 0 else row_source - 1)
        (Z.min (row_source + 1) last_row_source)
        (size_t (last_col_source + (kc - last_col_kernel - 1))) last_col_source
    else Ret None
  else UB.

(** lines 906-966 *)
Definition value_south : prog V (option V) :=
  if last_row_kernel <? kr then
    if kr - last_row_kernel <=? 1 then
      let col_source := fcs + kc in
      scan_all (size_t (last_row_source + (kr - last_row_kernel - 1))) last_row_source
        (if col_source <? 1 then 0 else col_source - 1)
        (Z.min (col_source + 1) last_col_source)
    else Ret None
  else UB.

(** skip_out_of_image.h:155-323 and the above *)
Definition out_of_image_value (s : side) : prog V (option V) :=
  match oi with
  | SkipOutOfImage => Ret None
  | OutOfImageByFocalAverage =>
      match s with
      | NorthWest => value_north_west | NorthEast => value_north_east
      | SouthWest => value_south_west | SouthEast => value_south_east
      | North => value_north | West => value_west
      | East => value_east | South => value_south
      end
  end.

(** The kernel cell is treated as being outside of the image; convolve.h:195-196, 374-375,
    553-554, 736-737, 916, 1095, 1276, 1456 *)
Definition outside (s : side) : bool :=
  match s with
  | NorthWest => (kr <? frk) || (kc <? fck)
  | NorthEast => (kr <? frk) || (nr_cols_kernel w <=? kc)
  | SouthWest => (nr_rows_kernel w <=? kr) || (kc <? fck)
  | SouthEast => (nr_rows_kernel w <=? kr) || (nr_cols_kernel w <=? kc)
  | North => kr <? frk
  | West => kc <? fck
  | East => nr_cols_kernel w <=? kc
  | South => nr_rows_kernel w <=? kr
  end.

(** The assertions of convolve.h:913-914, 1092-1093, 1273-1274, 1453-1454 *)
Definition outside_assertion (s : side) : bool :=
  match s with
  | North | South => fck <=? kc
  | West | East => frk <=? kr
  | _ => true
  end.
End OutOfImage.

(** ** One focus cell *)

(** convolve.h:183-218, 362-397, 541-577, 723-759, 900-938, 1079-1117, 1260-1298, 1440-1478 *)
Definition outside_cells (s : side) (w : window) (acc : sums) : prog V sums :=
  fold_range 0 (width k) (fun kr acc =>
    x <- fold_range 0 (width k) (fun kc (x : sums * Z) =>
           let '(acc, kernel_index) := x in
           if outside_assertion w kr kc s then
             acc' <- (if outside w kr kc s then
                        o <- out_of_image_value w kr kc s ;;
                        match o with
                        | Some v => wt <- weight kernel_index ;; Ret (handle_value v wt acc)
                        | None => Ret acc
                        end
                      else Ret acc) ;;
             Ret (acc', kernel_index + 1)
           else UB)
         (acc, kr * width k) ;;
    Ret (fst x)) acc.

(** convolve.h:229-253 and the same lines in the other functions: one cell of the kernel *)
Definition inside_cell (row col source_index kernel_index : Z) (acc : sums) : prog V sums :=
  ifp (is_no_data ip source_index)
    (o <- alternative_value row col ;;
     match o with
     | Some v => wt <- weight kernel_index ;; Ret (handle_value v wt acc)
     | None => Ret acc
     end)
    (wt <- weight kernel_index ;;
     if nonzero ar wt then v <- rdv src source_index ;; Ret (handle_value v wt acc)
     else Ret acc).

(** convolve.h:222-258, 401-437, 581-617, 763-799, 942-978, 1121-1157, 1302-1338, 1482-1518,
    1623-1658 *)
Definition inside_cells (w : window) (acc : sums) : prog V sums :=
  fold_range 0 (nr_rows_kernel w) (fun row acc =>
    x <- fold_range 0 (nr_cols_kernel w) (fun col (x : sums * Z * Z) =>
           let '(acc, source_index, kernel_index) := x in
           acc' <- inside_cell (first_row_source w + row) (first_col_source w + col)
                     source_index kernel_index acc ;;
           Ret (acc', source_index + 1, kernel_index + 1))
         (acc, (first_row_source w + row) * cols + first_col_source w,
          (first_row_kernel w + row) * width k + first_col_kernel w) ;;
    Ret (fst (fst x))) acc.

(** convolve.h:1750-1761: row, column and offset of the kernel cells with a true weight *)
Definition cell_offset_tuples : list (Z * Z * Z) :=
  flat_map (fun r =>
    flat_map (fun c =>
      if nonzero ar (weights k (Z.of_nat r * width k + Z.of_nat c))
      then [(Z.of_nat r, Z.of_nat c, Z.of_nat r * cols + Z.of_nat c)] else [])
      (List.seq 0 (Z.to_nat (width k))))
    (List.seq 0 (Z.to_nat (width k))).

(** convolve.h:1792-1821 *)
Definition offset_cells (w : window) (acc : sums) : prog V sums :=
  let source_index := first_row_source w * cols + first_col_source w in
  (fix loop (tuples : list (Z * Z * Z)) (acc : sums) : prog V sums :=
     match tuples with
     | [] => Ret acc
     | (row, col, offset) :: tuples' =>
         let '(sv, sw, seen) := acc in
         acc' <- ifp (is_no_data ip (source_index + offset))
                   (o <- alternative_value (first_row_source w + row)
                           (first_col_source w + col) ;;
                    match o with
                    | Some v => Ret (add ar sv v, add_one ar sw, true)
                    | None => Ret acc
                    end)
                   (v <- rdv src (source_index + offset) ;;
                    Ret (add ar sv v, add_one ar sw, true)) ;;
         loop tuples' acc'
     end) cell_offset_tuples acc.

(** convolve.h:164-272 and the same lines in the other functions.  [s] is the border region,
    if the focus is in one; [offsets] selects [ConvolveInnerPart<false>]. *)
Definition focus (s : option side) (offsets : bool) (w : window) (index_ : Z) : prog V unit :=
  ifp (if keep_no_data then is_no_data ip index_ else Ret false)
    (mark_as_no_data op index_)
    (let acc : sums := (zero_v ar, zero_w ar, false) in
     acc <- match s with Some s => outside_cells s w acc | None => Ret acc end ;;
     acc <- (if offsets then offset_cells w acc else inside_cells w acc) ;;
     let '(sv, sw, seen) := acc in
     if negb seen || negb (in_range ar sv) then mark_as_no_data op index_
     else wrv dst index_ (normalize ar sv sw)).

(** ** The regions *)

Definition focus_at (s : side) (frk fck nrk nck frs fcs index_ : Z) : prog V unit :=
  focus (Some s) false
    {| first_row_kernel := frk; first_col_kernel := fck;
       nr_rows_kernel := nrk; nr_cols_kernel := nck;
       first_row_source := frs; first_col_source := fcs |} index_.

Let r := radius k.

(** convolve.h:102-286 *)
Definition convolve_north_west : prog V unit :=
  fold_range 0 r (fun row_source (x : Z * Z) =>
    let '(frk, nrk) := x in
    fold_range 0 r (fun _ (y : Z * Z * Z) =>
      let '(fck, nck, index_) := y in
      focus_at NorthWest frk fck nrk nck 0 0 index_ ;;;
      Ret (size_t (fck - 1), nck + 1, index_ + 1)) (r, r + 1, row_source * cols + 0) ;;;
    Ret (size_t (frk - 1), nrk + 1)) (r, r + 1) ;;;
  skip.

(** convolve.h:289-465 *)
Definition convolve_north_east : prog V unit :=
  fold_range 0 r (fun row_source (x : Z * Z) =>
    let '(frk, nrk) := x in
    fold_range (size_t (cols - r)) cols (fun _ (y : Z * Z * Z) =>
      let '(fcs, nck, index_) := y in
      focus_at NorthEast frk 0 nrk nck 0 fcs index_ ;;;
      Ret (fcs + 1, size_t (nck - 1), index_ + 1))
      (size_t (cols - r - r), r + r, row_source * cols + size_t (cols - r)) ;;;
    Ret (size_t (frk - 1), nrk + 1)) (r, r + 1) ;;;
  skip.

(** convolve.h:468-645 *)
Definition convolve_south_west : prog V unit :=
  fold_range (size_t (rows - r)) rows (fun row_source (x : Z * Z) =>
    let '(frs, nrk) := x in
    fold_range 0 r (fun _ (y : Z * Z * Z) =>
      let '(fck, nck, index_) := y in
      focus_at SouthWest 0 fck nrk nck frs 0 index_ ;;;
      Ret (size_t (fck - 1), nck + 1, index_ + 1)) (r, r + 1, row_source * cols + 0) ;;;
    Ret (frs + 1, size_t (nrk - 1))) (size_t (rows - r - r), r + r) ;;;
  skip.

(** convolve.h:648-827 *)
Definition convolve_south_east : prog V unit :=
  fold_range (size_t (rows - r)) rows (fun row_source (x : Z * Z) =>
    let '(frs, nrk) := x in
    fold_range (size_t (cols - r)) cols (fun _ (y : Z * Z * Z) =>
      let '(fcs, nck, index_) := y in
      focus_at SouthEast 0 0 nrk nck frs fcs index_ ;;;
      Ret (fcs + 1, size_t (nck - 1), index_ + 1))
      (size_t (cols - r - r), r + r, row_source * cols + size_t (cols - r)) ;;;
    Ret (frs + 1, size_t (nrk - 1))) (size_t (rows - r - r), r + r) ;;;
  skip.

(** convolve.h:830-1004 *)
Definition convolve_north : prog V unit :=
  fold_range 0 r (fun row_source (x : Z * Z) =>
    let '(frk, nrk) := x in
    fold_range r (size_t (cols - r)) (fun _ (y : Z * Z) =>
      let '(fcs, index_) := y in
      focus_at North frk 0 nrk (width k) 0 fcs index_ ;;;
      Ret (fcs + 1, index_ + 1)) (0, row_source * cols + r) ;;;
    Ret (size_t (frk - 1), nrk + 1)) (r, r + 1) ;;;
  skip.

(** convolve.h:1007-1183 *)
Definition convolve_west : prog V unit :=
  fold_range r (size_t (rows - r)) (fun row_source frs =>
    fold_range 0 r (fun _ (y : Z * Z * Z) =>
      let '(fck, nck, index_) := y in
      focus_at West 0 fck (width k) nck frs 0 index_ ;;;
      Ret (size_t (fck - 1), nck + 1, index_ + 1)) (r, r + 1, row_source * cols + 0) ;;;
    Ret (frs + 1)) 0 ;;;
  skip.

(** convolve.h:1186-1365 *)
Definition convolve_east : prog V unit :=
  fold_range r (size_t (rows - r)) (fun row_source frs =>
    fold_range (size_t (cols - r)) cols (fun _ (y : Z * Z * Z) =>
      let '(fcs, nck, index_) := y in
      focus_at East 0 0 (width k) nck frs fcs index_ ;;;
      Ret (fcs + 1, size_t (nck - 1), index_ + 1))
      (size_t (cols - r - r), r + r, row_source * cols + size_t (cols - r)) ;;;
    Ret (frs + 1)) 0 ;;;
  skip.

(** convolve.h:1368-1545 *)
Definition convolve_south : prog V unit :=
  fold_range (size_t (rows - r)) rows (fun row_source (x : Z * Z) =>
    let '(frs, nrk) := x in
    fold_range r (size_t (cols - r)) (fun _ (y : Z * Z) =>
      let '(fcs, index_) := y in
      focus_at South 0 0 nrk (width k) frs fcs index_ ;;;
      Ret (fcs + 1, index_ + 1)) (0, row_source * cols + r) ;;;
    Ret (frs + 1, size_t (nrk - 1))) (size_t (rows - r - r), r + r) ;;;
  skip.

(** convolve.h:1554-1683 [ConvolveInnerPart<true>] and 1686-1845 [ConvolveInnerPart<false>] *)
Definition convolve_inner (blk : block2) : prog V unit :=
  fold_range (rbegin (fst blk)) (rend (fst blk)) (fun row_source frs =>
    fold_range (rbegin (snd blk)) (rend (snd blk)) (fun _ (y : Z * Z) =>
      let '(fcs, index_) := y in
      focus None (negb (weigh_values k))
        {| first_row_kernel := 0; first_col_kernel := 0;
           nr_rows_kernel := width k; nr_cols_kernel := width k;
           first_row_source := frs; first_col_source := fcs |} index_ ;;;
      Ret (fcs + 1, index_ + 1))
      (size_t (rbegin (snd blk) - r), row_source * cols + rbegin (snd blk)) ;;;
    Ret (frs + 1)) (size_t (rbegin (fst blk) - r)) ;;;
  skip.

(** convolve.h:1898-1940 *)
Definition border_regions : list (prog V unit) :=
  [convolve_north_west; convolve_north_east; convolve_south_west; convolve_south_east;
   convolve_north; convolve_west; convolve_east; convolve_south].

(** convolve.h:1890-1953; the constructor of [IndexRange] asserts. *)
Definition convolve_sequential : prog V unit :=
  seq_all border_regions ;;;
  match index_range r (size_t (rows - r)), index_range r (size_t (cols - r)) with
  | Some rr, Some cc => convolve_inner (rr, cc)
  | _, _ => UB
  end.

(** convolve.h:2058-2064 *)
Definition shift_block (blk : block2) : block2 :=
  ({| rbegin := rbegin (fst blk) + r; rend := rend (fst blk) + r |},
   {| rbegin := rbegin (snd blk) + r; rend := rend (snd blk) + r |}).

(** convolve.h:2013-2071, with the assertions of lines 2048-2049; the caller waits for all
    tasks. *)
Definition convolve_parallel (nr_threads : Z) : option (list (prog V unit)) :=
  if (2 * r <=? rows) && (2 * r <=? cols) then
    option_map (fun blocks => border_regions ++ map convolve_inner (map shift_block blocks))
      (index_ranges_2d nr_threads (size_t (rows - 2 * r)) (size_t (cols - 2 * r)))
  else None.
End Convolve.
