(** * Accumulators of floating point numbers

    Models [algorithm/accumulator/{sum,min,max,range,mean,variance,standard_deviation}.h] for
    an [Argument] and a [Result] that are the same floating point type, as the static
    assertions of [statistic/{unary_min,unary_max,sum,mean}.h] demand, and
    [statistic/detail/{binary_min,binary_max}.h].  Integers are in [AccumModel], the loops over
    the elements and the merging of the accumulators of blocks in [AggModel].

    Simplifications: those of [FloatModel] (one kind of NaN, no excess precision); the number
    of values is less than 2^64. *)

From Coq Require Import ZArith List Bool SpecFloat.
From Verif Require Import IntsModel ArithModel FloatModel AccumModel.
Import ListNotations.
Open Scope Z_scope.

(** [std::min(a, b)] is [(b < a) ? b : a] *)
Definition std_min (a b : spec_float) : spec_float := if SFltb b a then b else a.
(** [std::max(a, b)] is [(a < b) ? b : a] *)
Definition std_max (a b : spec_float) : spec_float := if SFltb a b then b else a.

(** statistic/detail/binary_min.h:24-38, binary_max.h:24-38; neither policy rejects anything
    (binary_min.h:55-58) *)
Definition fbinary_min (x y : spec_float) : spec_float := std_min x y.
Definition fbinary_max (x y : spec_float) : spec_float := std_max x y.
Definition every_pair (x y : spec_float) : bool := true.
Definition every_result (x y r : spec_float) : bool := true.

Section Format.
Variable f : fmt.
Notation plus := (SFadd (fprec f) (femax f)).
Notation minus := (SFsub (fprec f) (femax f)).
Notation times := (SFmul (fprec f) (femax f)).
Notation over := (SFdiv (fprec f) (femax f)).

(** [std::numeric_limits<Argument>::max()] and [lowest()]: finite numbers *)
Definition numeric_max : spec_float :=
  match f with
  | Single => S754_finite false 16777215 104
  | Double => S754_finite false 9007199254740991 971
  end.
Definition numeric_lowest : spec_float := SFopp numeric_max.

(** min.h:62-133, 142-150 *)
Definition fmin_accu : accu spec_float spec_float :=
  {| a_init := numeric_max;
     a_from := fun v => Some v;
     a_add := fun x v => Some (std_min x v, true);
     a_merge := fun x y => Some (std_min x y, true);
     a_result := fun x => Some x |}.

(** max.h:62-133, 142-150 *)
Definition fmax_accu : accu spec_float spec_float :=
  {| a_init := numeric_lowest;
     a_from := fun v => Some v;
     a_add := fun x v => Some (std_max x v, true);
     a_merge := fun x y => Some (std_max x y, true);
     a_result := fun x => Some x |}.

(** range.h:61-156: the result is [_max() - _min()] *)
Definition frange_accu : accu spec_float (spec_float * spec_float) :=
  {| a_init := (numeric_max, numeric_lowest);
     a_from := fun v => Some (v, v);
     a_add := fun x v => Some ((std_min (fst x) v, std_max (snd x) v), true);
     a_merge := fun x y => Some ((std_min (fst x) (fst y), std_max (snd x) (snd y)), true);
     a_result := fun x => Some (minus (snd x) (fst x)) |}.

(** The range policy that is passed to [statistic::sum] and [statistic::mean]:
    [binary::DiscardRangeErrors] ([false]; what is used if none is passed: sum.h:70-86 and
    mean.h:70-86 of statistic) or [add::OutOfRangePolicy] ([true]) *)
Definition sum_within (policy : bool) (prev v r : spec_float) : bool :=
  if policy then match fadd_within_range (NFloat f prev) (NFloat f v) r with Some b => b | None => false end else true.

(** sum.h:76-131 and 145-168, 187-197: the checked functions, which aggregates use *)
Definition fsum_accu (policy : bool) : accu spec_float spec_float :=
  let add s v := Some (plus s v, sum_within policy s v (plus s v)) in
  {| a_init := S754_zero false;
     a_from := fun v => Some v;
     a_add := add;
     a_merge := add;
     a_result := fun s => Some s |}.

(** mean.h:164-180: [_sum() / static_cast<Result>(_count())]; the assertion fails for a zero count *)
Definition fmean_result (x : spec_float * Z) : option spec_float :=
  if snd x =? 0 then None else Some (over (fst x) (to_format f (NInt U64 (snd x)))).

(** mean.h:84-128, 147-162, 200-216; with [policy = false] also the plain functions,
    mean.h:130-145, 183-198 *)
Definition fmean_accu (policy : bool) : accu spec_float (spec_float * Z) :=
  let add x v c := Some ((plus (fst x) v, snd x + c), sum_within policy (fst x) v (plus (fst x) v)) in
  {| a_init := (S754_zero false, 0);
     a_from := fun v => Some (v, 1);
     a_add := fun x v => add x v 1;
     a_merge := fun x y => add x (fst y) (snd y);
     a_result := fmean_result |}.

(** variance.h:57-61, 134-152 *)
Definition fsquare_dev (mean v : spec_float) : spec_float := times (minus mean v) (minus mean v).
Definition fvariance_result (x : (spec_float * Z) * list spec_float) : option spec_float :=
  match snd x with
  | [] => None
  | _ =>
      obind (fmean_result (fst x)) (fun mean =>
      Some (over (fold_left (fun r v => plus r (fsquare_dev mean v)) (snd x) (S754_zero false))
                 (to_format f (NInt U64 (Z.of_nat (length (snd x)))))))
  end.

(** variance.h:73-131, 155-173 *)
Definition fvariance_accu : accu spec_float ((spec_float * Z) * list spec_float) :=
  let me := fmean_accu false in
  {| a_init := (a_init me, []);
     a_from := fun v => option_map (fun m => (m, [v])) (a_from me v);
     a_add := fun x v => option_map (fun m => ((fst m, snd x ++ [v]), true)) (a_add me (fst x) v);
     a_merge := fun x y => option_map (fun m => ((fst m, snd x ++ snd y), true)) (a_merge me (fst x) (fst y));
     a_result := fvariance_result |}.

(** standard_deviation.h:57-140: the square root of the variance *)
Definition fdeviation_accu : accu spec_float ((spec_float * Z) * list spec_float) :=
  {| a_init := a_init fvariance_accu;
     a_from := a_from fvariance_accu;
     a_add := a_add fvariance_accu;
     a_merge := a_merge fvariance_accu;
     a_result := fun x => option_map (SFsqrt (fprec f) (femax f)) (a_result fvariance_accu x) |}.

End Format.
