(** * What slope, laplacian and lax are expected to compute *)
From Coq Require Import ZArith List Bool.
From Verif Require Import LangModel ConcModel IndexModel IndexSpec LoopModel LoopSpec PolicyModel LocalSpec
  ConvolveModel ConvolveSpec VectorModel.
Import ListNotations.
Open Scope Z_scope.

(** ** Algorithms that are executed one after the other *)

(** Whatever the schedules, the tasks of none of the algorithms race or fault, they can always still
    complete, and once those of the last one have completed, the memory is [m1]. *)
Fixpoint yields_in_turn {V} (calls : list (list (prog V unit) * prog V unit)) (m0 m1 : mem V) : Prop :=
  match calls with
  | [] => mem_eq m0 m1
  | (tasks, join) :: calls' =>
      no_race tasks m0 /\
      forall sched, exists ps m, exec sched tasks m0 = Some (ps, m) /\
        (all_done ps = true -> exists m', run join m = Some (tt, m') /\ yields_in_turn calls' m' m1) /\
        exists sched' ps' m', exec sched' ps m = Some (ps', m') /\ all_done ps' = true
  end.

(** Executed one after the other the calls end without undefined behaviour in memory [m1]; so do
    they when they are executed by any number of threads. *)
Definition leaves {V} (calls : list (call V)) (m m1 : mem V) : Prop :=
  run (in_order calls) m = Some (tt, m1) /\
  forall n, 1 <= n -> exists l, submitted n calls = Some l /\ yields_in_turn l m m1.

(** Nothing changes but the values and the marks of the given buffers. *)
Definition changes_buffers {V} (l : list buf) (m m1 : mem V) : Prop :=
  forall b i, ~ In b l -> mval m1 b i = mval m b i /\ mmsk m1 b i = mmsk m b i.

(** ** Storage *)

(** The elements of buffer [b], and of its mask if it has one, exist. *)
Definition stored {V} (n : Z) (st : storage) (b : buf) (m : mem V) : Prop :=
  forall i, 0 <= i < n -> mval m b i <> None /\ (st = HasMask -> mmsk m b i <> None).

(** A new temporary: nothing is marked. *)
Definition fresh {V} (n : Z) (st : storage) (b : buf) (m : mem V) : Prop :=
  forall i, 0 <= i < n -> mval m b i <> None /\ (st = HasMask -> mmsk m b i = Some false).

(** A new temporary holds zeros. *)
Definition zeros {V} (fl : floats V) (n : Z) (b : buf) (m : mem V) : Prop :=
  forall i, 0 <= i < n -> mval m b i = Some (lit fl 0).

(** The policy looks at nothing that buffer [b] consists of. *)
Definition looks_elsewhere {V} (ip : inpol V) (b : buf) : Prop :=
  match ip with DetectByMask c _ | DetectByValue c _ => c <> b | _ => True end.

(** What one sees at element [i] of a buffer with a mask: nothing, if it is marked. *)
Definition seen {V} (b : buf) (m : mem V) (i : Z) : option V := arg_at (DetectByMask b true) b m i.

(** ** The results, at one cell *)
Section Cell.
Context {V SV SW : Type}.
Variable fl : floats V.
Variable ar : arith V V SV SW.
Variables (ip : inpol V) (value : buf) (rows cols : Z) (m : mem V).

Definition also {A B} (o : option A) (f : A -> option B) : option B :=
  match o with Some x => f x | None => None end.

(** A result that is not finite is no-data. *)
Definition checked (v : V) : option V := if finite fl v then Some v else None.

(** Division by zero is no-data. *)
Definition divided (x y : V) : option V := if is_zero fl y then None else checked (fdiv fl x y).

(** The weighted sum of the values in the 3 x 3 neighbourhood of [f]; no-data and cells outside of the
    raster are replaced by the average of the values around them.  No-data if [f] is. *)
Definition weighted_sum (ar : arith V V SV SW) (weights : list Z) (f : Z * Z) : option V :=
  convolved ar ip value rows cols (square fl weights) NoDataByFocalAverage OutOfImageByFocalAverage
    true m f.

(** Horn's method: the square root of the sum of the squares of the differences in both directions,
    each divided by eight times the size of a cell. *)
Definition horn_x : list Z := [1; 0; -1;  2; 0; -2;  1; 0; -1].
Definition horn_y : list Z := [-1; -2; -1;  0; 0; 0;  1; 2; 1].

Definition squared_difference (weights : list Z) (cell_size : V) (f : Z * Z) : option V :=
  also (weighted_sum ar weights f) (fun s =>
  also (divided s (fmul fl (lit fl 8) cell_size)) (fun d =>
  checked (fpow fl d (lit fl 2)))).

Definition slope_at (width height : V) (f : Z * Z) : option V :=
  also (squared_difference horn_x width f) (fun x =>
  also (squared_difference horn_y height f) (fun y =>
  option_map (fsqrt fl) (checked (fadd fl x y)))).

(** Without an output no-data policy: a sum that is no-data leaves the zero that the temporary was
    created with, and results are neither checked nor marked. *)
Definition unchecked_difference (weights : list Z) (cell_size : V) (f : Z * Z) : V :=
  let s := match weighted_sum ar weights f with Some s => s | None => lit fl 0 end in
  let c := fmul fl (lit fl 8) cell_size in
  fpow fl (if is_zero fl c then s else fdiv fl s c) (lit fl 2).

Definition unchecked_sum (width height : V) (f : Z * Z) : V :=
  fadd fl (unchecked_difference horn_x width f) (unchecked_difference horn_y height f).

(** The valid values around [f], each with its weight: 3 if it shares a side with [f] and 2 if it
    shares a corner. *)
Definition around (f : Z * Z) : list (V * V) :=
  flat_map (fun dw =>
      let c := (fst f + fst (fst dw), snd f + snd (fst dw)) in
      if in_image rows cols c then
        match value_at ip value cols m c with Some v => [(v, lit fl (snd dw))] | None => [] end
      else [])
    [((-1, -1), 2); ((-1, 0), 3); ((-1, 1), 2);
     ((0, -1), 3); ((0, 1), 3);
     ((1, -1), 2); ((1, 0), 3); ((1, 1), 2)].

(** The sum of the weighted values, and the sum of the weights. *)
Definition sum_around (f : Z * Z) : SV :=
  fold_left (fun s x => add_scaled ar s (fst x) (snd x)) (around f) (zero_v ar).
Definition weight_around (f : Z * Z) : SW :=
  fold_left (fun s x => add_weight ar s (snd x)) (around f) (zero_w ar).
(** The sum of the weights, as it is calculated from ones. *)
Definition ones_around (f : Z * Z) : SV :=
  fold_left (fun s x => add_scaled ar s (lit fl 1) (snd x)) (around f) (zero_v ar).

(** The sum as a value; no-data if [f] is, if there are no valid values around it, or if it is out of
    range.  It is normalized as [ar] says. *)
Definition combined (f : Z * Z) : option V :=
  also (value_at ip value cols m f) (fun _ =>
  match around f with
  | [] => None
  | _ => if in_range ar (sum_around f) then Some (normalize ar (sum_around f) (weight_around f)) else None
  end).

(** (sum - sum of weights * value) / area of a cell *)
Definition laplacian_at (area : V) (f : Z * Z) : option V :=
  also (combined f) (fun s =>
  also (value_at ip value cols m f) (fun v =>
  also (checked (fmul fl (normalize ar (ones_around f) (weight_around f)) v)) (fun w =>
  also (checked (fsub fl s w)) (fun d => divided d area)))).

(** (1 - fraction) * value + fraction * average *)
Definition lax_at (fraction : V) (f : Z * Z) : option V :=
  also (combined f) (fun s =>
  also (value_at ip value cols m f) (fun v =>
  also (checked (fmul fl fraction s)) (fun a =>
  also (checked (fmul fl (fsub fl (lit fl 1) fraction) v)) (fun b =>
  checked (fadd fl b a))))).

(** The values that the results have whether they are marked or not; [old] is the value that was in
    the result before. *)
Definition lax_value (fraction : V) (f : Z * Z) (v old : V) : V :=
  let s := match combined f with Some s => s | None => old end in
  fadd fl (fmul fl (fsub fl (lit fl 1) fraction) v) (fmul fl fraction s).

(** A sum that is no-data leaves what was in the result; a sum of weights that does not exist, and its
    product with no-data, leave the zero that the temporary was created with. *)
Definition laplacian_value (area : V) (f : Z * Z) (old : V) : V :=
  let s := match combined f with Some s => s | None => old end in
  let w := match around f with [] => lit fl 0 | _ => normalize ar (ones_around f) (weight_around f) end in
  let d := fsub fl s (match value_at ip value cols m f with Some v => fmul fl w v | None => lit fl 0 end) in
  if is_zero fl area then d else fdiv fl d area.
End Cell.

(** ** When slope, laplacian and lax can be called *)

(** The buffers and scalars do not overlap, the scalars have their values, and the no-data policy of the
    argument looks at none of the buffers that are written. *)
Definition slope_arguments {V} (fl : floats V) (rows cols : Z) (ip : inpol V)
    (value result dz_dx dz_dy eight_x eight_y two : buf) (cell_size : Z -> V) (m : mem V) : Prop :=
  3 <= rows < 2 ^ 64 /\ 3 <= cols < 2 ^ 64 /\
  NoDup [value; result; dz_dx; dz_dy; eight_x; eight_y; two] /\
  (forall b, In b [result; dz_dx; dz_dy] -> looks_elsewhere ip b) /\
  slope_scalars fl eight_x eight_y two cell_size m /\
  (forall i, 0 <= i < rows * cols -> arg_exists ip value m i).

Definition tells_weights_apart {V SV SW} (fl : floats V) (ar : arith V V SV SW) : Prop :=
  nonzero ar (lit fl 0) = false /\ nonzero ar (lit fl 2) = true /\ nonzero ar (lit fl 3) = true.

Definition laplacian_arguments {V} (fl : floats V) (rows cols : Z) (ip : inpol V)
    (value result defined defined_as_floats sum_of_weights multiplied zero area : buf) (cell_area : V)
    (m : mem V) : Prop :=
  2 <= rows < 2 ^ 64 /\ 2 <= cols < 2 ^ 64 /\
  NoDup [value; result; defined; defined_as_floats; sum_of_weights; multiplied; zero; area] /\
  (forall b, In b [result; defined; defined_as_floats; sum_of_weights; multiplied] -> looks_elsewhere ip b) /\
  laplacian_scalars fl zero area cell_area m /\
  (forall i, 0 <= i < rows * cols -> arg_exists ip value m i) /\
  (forall b i, In b [defined; defined_as_floats; sum_of_weights; multiplied] -> 0 <= i < rows * cols ->
     mval m b i <> None).

Definition lax_arguments {V} (fl : floats V) (rows cols : Z) (ip : inpol V)
    (value result multiplied fraction rest : buf) (fr : V) (m : mem V) : Prop :=
  2 <= rows < 2 ^ 64 /\ 2 <= cols < 2 ^ 64 /\
  NoDup [value; result; multiplied; fraction; rest] /\
  (forall b, In b [result; multiplied] -> looks_elsewhere ip b) /\
  lax_scalars fl fraction rest fr m /\
  (forall i, 0 <= i < rows * cols -> arg_exists ip value m i /\ mval m multiplied i <> None).
