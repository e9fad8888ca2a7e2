(** * What sums of floating point numbers should be *)
From Coq Require Import ZArith List Bool SpecFloat.
From Verif Require Import LangModel ConcModel IndexSpec LoopSpec PolicyModel LocalSpec IntsModel FloatModel
  IeeeSpec FloatSpec AccumModel AggModel AggSpec FloatAccumSpec.
Import ListNotations.
Open Scope Z_scope.

(** Adding the values [vs] one by one to [s], and rounding each time to a nearest number, gives
    [t]; none of the sums overflows. *)
Inductive rounded_sum (f : fmt) : spec_float -> list spec_float -> spec_float -> Prop :=
| sum_none s : rounded_sum f s [] s
| sum_more s v s' vs t :
    is_finite v = true -> nearest f (fvalue f s + fvalue f v) 1 s' -> ~ overflows f (fvalue f s + fvalue f v) 1 ->
    rounded_sum f s' vs t -> rounded_sum f s (v :: vs) t.

(** Some value is not a number, or the sum overflows when it is added. *)
Definition no_sum (f : fmt) (s : spec_float) (vs : list spec_float) : Prop :=
  exists us v ws t, vs = us ++ v :: ws /\ rounded_sum f s us t /\
    (is_finite v = false \/ overflows f (fvalue f t + fvalue f v) 1).

Definition zero := S754_zero false.

(** However the elements are laid out, the outcome of sequential execution is [o]. *)
Definition sequentially_to {V A} (acc : accu V A) (ip : inpol V) (op : outpol V) (a rb : buf) (m : mem V) (size : Z) (o : outcome V) : Prop :=
  (size = 1 -> computes (aggregate_0d acc ip op a rb) op rb 1 (fun _ => o) m) /\
  computes (aggregate_1d acc ip op a rb size) op rb 1 (fun _ => o) m /\
  (forall rows cols, 0 <= rows -> 0 <= cols -> rows * cols = size ->
     computes (aggregate_2d acc ip op a rb rows cols) op rb 1 (fun _ => o) m).

(** A power of two, as a value; the numbers of the format can be multiples of it *)
Definition grain (f : fmt) (g : Z) : Prop :=
  exists k, 0 <= k <= femax f - fprec f - emin (fprec f) (femax f) /\ g = 2 ^ k * step f.

(** The values are numbers, namely the multiples [zs] of [g]. *)
Definition multiples (f : fmt) (g : Z) (vs : list spec_float) (zs : list Z) : Prop :=
  Forall2 (fun v z => is_number (fprec f) (femax f) v /\ fvalue f v = z * g) vs zs.
Definition magnitude (zs : list Z) : Z := total (map Z.abs zs).

(** [r] is nearest to the mean: the sum [t] divided by the number of values, itself rounded to a
    number of the format. *)
Definition rounded_mean (f : fmt) (t : spec_float) (n : Z) (r : spec_float) : Prop :=
  exists c, nearest f (n * one) 1 c /\ nearest f (fvalue f t * one) (fvalue f c) r.

(** A number that is not negative, or plus infinity *)
Definition nonnegative (f : fmt) (x : spec_float) : Prop :=
  x = plus_infinity \/ (is_finite x = true /\ 0 <= fvalue f x).

(** Adding the squares of the differences of the values [vs] with [mean] to [s], each step rounded
    to a nearest number, gives [t]; nothing overflows. *)
Inductive rounded_squares (f : fmt) (mean : spec_float) : spec_float -> list spec_float -> spec_float -> Prop :=
| squares_none s : rounded_squares f mean s [] s
| squares_more s v d q s' vs t :
    nearest f (fvalue f mean - fvalue f v) 1 d -> ~ overflows f (fvalue f mean - fvalue f v) 1 ->
    nearest f (fvalue f d * fvalue f d) one q -> ~ overflows f (fvalue f d * fvalue f d) one ->
    nearest f (fvalue f s + fvalue f q) 1 s' -> ~ overflows f (fvalue f s + fvalue f q) 1 ->
    rounded_squares f mean s' vs t -> rounded_squares f mean s (v :: vs) t.

(** A difference, a square or a sum overflows. *)
Inductive squares_overflow (f : fmt) (mean : spec_float) : spec_float -> list spec_float -> Prop :=
| difference_overflows s v vs : overflows f (fvalue f mean - fvalue f v) 1 -> squares_overflow f mean s (v :: vs)
| square_overflows s v d vs :
    nearest f (fvalue f mean - fvalue f v) 1 d -> overflows f (fvalue f d * fvalue f d) one -> squares_overflow f mean s (v :: vs)
| added_overflows s v d q vs :
    nearest f (fvalue f mean - fvalue f v) 1 d -> nearest f (fvalue f d * fvalue f d) one q ->
    overflows f (fvalue f s + fvalue f q) 1 -> squares_overflow f mean s (v :: vs)
| later_overflows s v d q s' vs :
    nearest f (fvalue f mean - fvalue f v) 1 d -> nearest f (fvalue f d * fvalue f d) one q ->
    nearest f (fvalue f s + fvalue f q) 1 s' -> squares_overflow f mean s' vs -> squares_overflow f mean s (v :: vs).

(** [v] is the mean of the squares of the differences with the mean, rounded in each step. *)
Definition rounded_variance (f : fmt) (vs : list spec_float) (v : spec_float) : Prop :=
  exists t mean q, rounded_sum f zero vs t /\ rounded_mean f t (Z.of_nat (length vs)) mean /\
    rounded_squares f mean zero vs q /\ rounded_mean f q (Z.of_nat (length vs)) v.
Definition variance_overflows (f : fmt) (vs : list spec_float) : Prop :=
  no_sum f zero vs \/
  exists t mean, rounded_sum f zero vs t /\ rounded_mean f t (Z.of_nat (length vs)) mean /\ squares_overflow f mean zero vs.
