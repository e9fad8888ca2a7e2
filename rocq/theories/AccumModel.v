(** * Accumulators

    Models [algorithm/accumulator/{count,sum,min,max,range,mean,median,mode,variance}.h] and
    [accumulator/detail/frequency_table.h] for integer [Argument] and [Result] types.

    An accumulator has two interfaces.  The plain one is [operator()(value)] and
    [operator|=].  The checked one is the pair of templates of the same names that take an
    out-of-range policy and return whether the result is within range; only [Count], [Sum]
    and [Mean] have it, and [unary_aggregate_operation] uses it for exactly those
    ([out_of_range_risk]).  Both are modelled by one record; in the plain one the Boolean is
    always [true].

    Simplifications: [std::vector] is a list; [std::unordered_map] is a list of pairs that
    can be visited in any order ([order]); the frequencies of a frequency table and the
    lengths of vectors do not wrap at 2^64.  Floating point types are in [FloatAccumModel]. *)

From Coq Require Import ZArith List Bool.
From Verif Require Import IntsModel.
Import ListNotations.
Open Scope Z_scope.

Section Accu.
Context {V A : Type}.

(** [None] is undefined behaviour. *)
Record accu := {
  a_init : A;                              (* default constructor *)
  a_from : V -> option A;                  (* constructor from, and assignment of, a value *)
  a_add : A -> V -> option (A * bool);     (* operator()(value) *)
  a_merge : A -> A -> option (A * bool);   (* operator|=(other) *)
  a_result : A -> option V                 (* operator()() *)
}.
End Accu.
Arguments accu V A : clear implicits.

Definition obind {X Y} (o : option X) (k : X -> option Y) : option Y :=
  match o with Some x => k x | None => None end.

Definition fine {X} (o : option X) : option (X * bool) := option_map (fun x => (x, true)) o.

Section Ints.
(** As in [IntsModel.v]: whether signed overflow wraps. *)
Variable wrapv : bool.

(** [r += v] for [r] of type [R] and [v] of type [T] *)
Definition plus_into (R T : ity) (r v : Z) : option Z :=
  let C := common R T in
  option_map (conv R) (arith wrapv C (conv C r + conv C v)).

(** An out-of-range policy, applied to the previous result, the value and the result. *)
Definition rpolicy := Z -> Z -> Z -> bool.

(** binary::DiscardRangeErrors (policy/discard_range_errors.h:19-63) *)
Definition discard_range_errors : rpolicy := fun _ _ _ => true.

Definition checked (pol : rpolicy) (prev v : Z) (o : option Z) : option (Z * bool) :=
  option_map (fun r => (r, pol prev v r)) o.

(** ** count.h *)

(** count.h:67-92 (constructors), 100-122, 141-150, 158-167 *)
Definition count_plain (A R : ity) : accu Z Z :=
  {| a_init := 0;
     a_from := fun _ => Some 1;
     a_add := fun c _ => fine (plus_into R S32 c 1);
     a_merge := fun c d => fine (plus_into R R c d);
     a_result := fun c => Some c |}.

(** count.h:124-138 and 169-180: the checked merge calls the checked [operator()] once *)
Definition count_checked (A R : ity) (pol : rpolicy) : accu Z Z :=
  let add c := checked pol c (conv A 1) (plus_into R S32 c 1) in
  {| a_init := 0;
     a_from := fun _ => Some 1;
     a_add := fun c _ => add c;
     a_merge := fun c _ => add c;
     a_result := fun c => Some c |}.

(** ** sum.h *)

(** sum.h:76-101 (constructors), 109-131, 134-143, 176-185 *)
Definition sum_plain (A R : ity) : accu Z Z :=
  {| a_init := 0;
     a_from := fun v => Some (conv R v);
     a_add := fun s v => fine (plus_into R A s v);
     a_merge := fun s t => fine (plus_into R R s t);
     a_result := fun s => Some s |}.

(** sum.h:145-168 and 187-197: the checked merge passes the other sum to the checked
    [operator()(Argument const&)], which converts it to [Argument] *)
Definition sum_checked (A R : ity) (pol : rpolicy) : accu Z Z :=
  let add s v := checked pol s v (plus_into R A s v) in
  {| a_init := 0;
     a_from := fun v => Some (conv R v);
     a_add := add;
     a_merge := fun s t => add s (conv A t);
     a_result := fun s => Some s |}.

(** ** min.h, max.h *)

(** min.h:62-133, 142-150 *)
Definition min_accu (A R : ity) : accu Z Z :=
  {| a_init := imax A;
     a_from := fun v => Some v;
     a_add := fun x v => Some (Z.min x v, true);
     a_merge := fun x y => Some (Z.min x y, true);
     a_result := fun x => Some (conv R x) |}.

(** max.h:62-133, 142-150 *)
Definition max_accu (A R : ity) : accu Z Z :=
  {| a_init := imin A;
     a_from := fun v => Some v;
     a_add := fun x v => Some (Z.max x v, true);
     a_merge := fun x y => Some (Z.max x y, true);
     a_result := fun x => Some (conv R x) |}.

(** ** range.h:61-156: a [Min] and a [Max]; the result is [_max() - _min()], computed in the
    promoted result type *)
Definition range_accu (A R : ity) : accu Z (Z * Z) :=
  {| a_init := (imax A, imin A);
     a_from := fun v => Some (v, v);
     a_add := fun x v => Some ((Z.min (fst x) v, Z.max (snd x) v), true);
     a_merge := fun x y => Some ((Z.min (fst x) (fst y), Z.max (snd x) (snd y)), true);
     a_result := fun x =>
       option_map (conv R) (arith wrapv (promote R) (conv R (snd x) - conv R (fst x))) |}.

(** ** mean.h: a [Sum<Argument, Result>] and a [Count<Argument, size_t>] *)

(** mean.h:164-180; the assertion fails for a zero count *)
Definition mean_result (R : ity) (x : Z * Z) : option Z :=
  if snd x =? 0 then None
  else option_map (fun q : tv => conv R (snd q)) (tv_div (R, fst x) (R, conv R (snd x))).

(** mean.h:84-145, 183-198 *)
Definition mean_plain (A R : ity) : accu Z (Z * Z) :=
  {| a_init := (0, 0);
     a_from := fun v => Some (conv R v, 1);
     a_add := fun x v =>
       obind (plus_into R A (fst x) v) (fun s =>
       obind (plus_into U64 S32 (snd x) 1) (fun c => Some ((s, c), true)));
     a_merge := fun x y =>
       obind (plus_into R R (fst x) (fst y)) (fun s =>
       obind (plus_into U64 U64 (snd x) (snd y)) (fun c => Some ((s, c), true)));
     a_result := mean_result R |}.

(** mean.h:147-162, 200-216: the counts are added without check, the sums with the checked
    [operator()] of [Sum] *)
Definition mean_checked (A R : ity) (pol : rpolicy) : accu Z (Z * Z) :=
  let add x v c :=
    obind (plus_into U64 U64 (snd x) c) (fun c' =>
    option_map (fun sb => ((fst sb, c'), snd sb))
      (checked pol (fst x) v (plus_into R A (fst x) v))) in
  {| a_init := (0, 0);
     a_from := fun v => Some (conv R v, 1);
     a_add := fun x v => add x v 1;
     a_merge := fun x y => add x (conv A (fst y)) (snd y);
     a_result := mean_result R |}.

(** ** median.h *)

(** [std::sort] on integers *)
Fixpoint insert (x : Z) (l : list Z) : list Z :=
  match l with
  | [] => [x]
  | y :: l' => if x <=? y then x :: l else y :: insert x l'
  end.
Definition sort (l : list Z) : list Z := fold_right insert [] l.

(** median.h:123-155; [_values[center - 1] + _values[center]] is computed in the promoted
    argument type, the division in the common type of [Result] and [int] *)
Definition median_result (A R : ity) (l : list Z) : option Z :=
  let s := sort l in
  let center := Nat.div (length s) 2 in
  match s with
  | [] => None
  | _ =>
      if Nat.odd (length s) then Some (conv R (nth center s 0))
      else
        obind (arith wrapv (promote A) (nth (center - 1) s 0 + nth center s 0)) (fun t =>
        option_map (fun q : tv => conv R (snd q)) (tv_div (R, conv R t) (S32, 2)))
  end.

(** median.h:65-121, 157-173 *)
Definition median_accu (A R : ity) : accu Z (list Z) :=
  {| a_init := [];
     a_from := fun v => Some [v];
     a_add := fun l v => Some (l ++ [v], true);
     a_merge := fun l k => Some (l ++ k, true);
     a_result := median_result A R |}.

(** ** detail/frequency_table.h, mode.h *)

Definition table := list (Z * Z).

(** frequency_table.h:99-106: [++_frequency[value]] *)
Fixpoint freq_plus (t : table) (v n : Z) : table :=
  match t with
  | [] => [(v, n)]
  | (w, k) :: t' => if w =? v then (w, k + n) :: t' else (w, k) :: freq_plus t' v n
  end.

(** frequency_table.h:109-128: for each pair of the other table, insert or add *)
Definition freq_merge (t u : table) : table :=
  fold_left (fun t' p => freq_plus t' (fst p) (snd p)) u t.

(** [std::max_element] with [lhs.second < rhs.second]: the first of the largest *)
Fixpoint max_element (best : Z * Z) (l : table) : Z * Z :=
  match l with
  | [] => best
  | p :: l' => max_element (if snd best <? snd p then p else best) l'
  end.

(** frequency_table.h:145-170; [l] is the table in the order in which the map is visited *)
Definition freq_mode (l : table) : option Z :=
  match l with
  | [] => None
  | p :: l' => Some (fst (max_element p l'))
  end.

(** mode.h:60-148.  The default constructor initialises the table with the value 0
    (mode.h:63-71): [_frequency_table(0)] is the constructor from a value.
    [order] is the order in which the map is visited. *)
Definition mode_accu (order : table -> table) (A R : ity) : accu Z table :=
  {| a_init := [(0, 1)];
     a_from := fun v => Some [(v, 1)];
     a_add := fun t v => Some (freq_plus t v 1, true);
     a_merge := fun t u => Some (freq_merge t u, true);
     a_result := fun t => option_map (conv R) (freq_mode (order t)) |}.

(** ** variance.h *)

(** variance.h:57-61, 134-152: [square] and the subtraction are computed in the promoted
    result type *)
Definition square_dev (R : ity) (mean v : Z) : option Z :=
  obind (arith wrapv (promote R) (mean - conv R v)) (fun d =>
  arith wrapv (promote R) (d * d)).
Fixpoint sum_dev (R : ity) (mean : Z) (r : Z) (l : list Z) : option Z :=
  match l with
  | [] => Some r
  | v :: l' =>
      obind (square_dev R mean v) (fun d =>
      obind (plus_into R (promote R) r d) (fun r' => sum_dev R mean r' l'))
  end.
Definition variance_result (R : ity) (x : (Z * Z) * list Z) : option Z :=
  match snd x with
  | [] => None
  | _ =>
      obind (mean_result R (fst x)) (fun mean =>
      obind (sum_dev R mean 0 (snd x)) (fun r =>
      option_map (fun q : tv => conv R (snd q))
        (tv_div (R, r) (R, conv R (Z.of_nat (length (snd x)))))))
  end.

(** variance.h:73-131, 155-173 *)
Definition variance_accu (A R : ity) : accu Z ((Z * Z) * list Z) :=
  let me := mean_plain A R in
  {| a_init := (a_init me, []);
     a_from := fun v => option_map (fun m => (m, [v])) (a_from me v);
     a_add := fun x v =>
       option_map (fun m => ((fst m, snd x ++ [v]), true)) (a_add me (fst x) v);
     a_merge := fun x y =>
       option_map (fun m => ((fst m, snd x ++ snd y), true)) (a_merge me (fst x) (fst y));
     a_result := variance_result R |}.

End Ints.
