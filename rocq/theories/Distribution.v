(** Model of utils/distribution_helper.cc. *)
From Verif Require Import Proto.

(** ** double: IEEE-754 binary64, round to nearest even (no extended precision). *)
Definition fadd : double -> double -> double := SFadd 53 1024.
Definition fsub : double -> double -> double := SFsub 53 1024.
Definition fmul : double -> double -> double := SFmul 53 1024.
Definition fdiv : double -> double -> double := SFdiv 53 1024.
Definition flt : double -> double -> bool := SFltb.
Definition fle : double -> double -> bool := SFleb.
Definition feq : double -> double -> bool := SFeqb.
(** implicit conversion of an int or int64 to double *)
Definition f_of_int (z : Z) : double := binary_normalize 53 1024 z 0 false.
Definition is_nan (x : double) : bool := match x with S754_nan => true | _ => false end.
Definition f_zero : double := S754_zero false.
Definition f_one : double := S754_finite false 4503599627370496 (-52).
(** 1e-5 as binary64: 0x1.4f8b588e368f1p-17 *)
Definition f_1em5 : double := S754_finite false 5902958103587057 (-69).

(** The integer part of a finite double (truncation toward zero). *)
Definition f_trunc (x : double) : option Z :=
  match x with
  | S754_zero _ => Some 0
  | S754_finite s m e =>
      let t := if 0 <=? e then Z.pos m * 2 ^ e else Z.pos m / 2 ^ (- e) in
      Some (if s then - t else t)
  | _ => None
  end.
(** static_cast<int>(double): undefined unless the truncated value is an int. *)
Definition f_to_int (x : double) : outcome Z :=
  match f_trunc x with
  | Some t => if in_int32 t then Ok t else UB BadFloatToInt
  | None => UB BadFloatToInt
  end.

(** ** The arithmetic of the running statistics, over any number type.  The code uses binary64 ([b64]);
    the exact-arithmetic reading of C28 uses rationals, through the same definitions. *)
Record arith := Arith {
  num : Type;
  nadd : num -> num -> num; nsub : num -> num -> num; nmul : num -> num -> num; ndiv : num -> num -> num;
  nint : Z -> num;
  nlt : num -> num -> bool }.
Definition b64 : arith := Arith double fadd fsub fmul fdiv f_of_int flt.

(** count, mean, minimum, maximum, sum_of_squared_deviation *)
Record stats (T : Type) := Stats { s_count : Z; s_mean : T; s_min : T; s_max : T; s_ssd : T }.
Arguments Stats {T} _ _ _ _ _.
Arguments s_count {T} _. Arguments s_mean {T} _. Arguments s_min {T} _. Arguments s_max {T} _. Arguments s_ssd {T} _.

Section kernel.
Context (A : arith).
(** std::min(a, b) and std::max(a, b) *)
Definition std_min (a b : num A) : num A := if nlt A b a then b else a.
Definition std_max (a b : num A) : num A := if nlt A a b then b else a.

(** utils/distribution_helper.cc:42-66 UpdateGeneralStatictics *)
Definition UpdateGeneralStatistics (value : num A) (s : stats (num A)) : outcome (stats (num A)) :=
  if s_count s =? 0 then Ok (Stats 1 value value value (nint A 0))
  else
    let count := s_count s in
    let mean := s_mean s in
    let! count1 := add64 Strict count 1 in
    let new_mean := ndiv A (nadd A (nmul A (nint A count) mean) value) (nint A count1) in
    Ok (Stats count1 new_mean (std_min value (s_min s)) (std_max value (s_max s))
          (nadd A (s_ssd s) (nmul A (nsub A value mean) (nsub A value new_mean)))).

(** utils/distribution_helper.cc:290-301, the statistics part of Merge, for both counts positive *)
Definition MergeStatistics (from to : stats (num A)) : outcome (stats (num A)) :=
  let count := s_count to in
  let mean := s_mean to in
  let ssd := s_ssd to in
  let! new_count := add64 Strict (s_count to) (s_count from) in
  let new_mean := ndiv A (nadd A (nmul A (nint A count) mean) (nmul A (nint A (s_count from)) (s_mean from)))
                       (nint A new_count) in
  let sq n d := nmul A (nmul A (nint A n) d) d in
  Ok (Stats new_count new_mean (std_min (s_min from) (s_min to)) (std_max (s_max from) (s_max to))
        (nadd A (nadd A (nadd A ssd (s_ssd from)) (sq count (nsub A new_mean mean)))
              (sq (s_count from) (nsub A new_mean (s_mean from))))).
End kernel.

Definition d_stats (d : distribution) : stats double := Stats (d_count d) (d_mean d) (d_min d) (d_max d) (d_ssd d).
Definition set_stats (s : stats double) (d : distribution) : distribution :=
  Distribution (s_count s) (s_mean s) (s_min s) (s_max s) (s_ssd s) (d_buckets d) (d_option d).
Definition set_buckets (b : list Z) (d : distribution) : distribution :=
  Distribution (d_count d) (d_mean d) (d_min d) (d_max d) (d_ssd d) b (d_option d).
Definition set_option (o : bucket_option) (d : distribution) : distribution :=
  Distribution (d_count d) (d_mean d) (d_min d) (d_max d) (d_ssd d) (d_buckets d) o.

(** A default-constructed Distribution message. *)
Definition empty_distribution : distribution := Distribution 0 f_zero f_zero f_zero f_zero [] BNotSet.

(** utils/distribution_helper.cc:68-71 IsCloseEnough *)
Definition IsCloseEnough (x y : double) : bool := fle (SFabs (fsub x y)) (fmul f_1em5 (SFabs x)).

(** utils/distribution_helper.cc:76-132 BucketsApproximatelyEqual *)
Definition BucketsApproximatelyEqual (first second : distribution) : bool :=
  match d_option first, d_option second with
  | BLinear n1 w1 o1, BLinear n2 w2 o2 => (n1 =? n2) && IsCloseEnough w1 w2 && IsCloseEnough o1 o2
  | BExponential n1 g1 s1, BExponential n2 g2 s2 => (n1 =? n2) && IsCloseEnough g1 g2 && IsCloseEnough s1 s2
  | BExplicit b1, BExplicit b2 =>
      Nat.eqb (length b1) (length b2) && forallb (fun xy => IsCloseEnough xy.1 xy.2) (combine b1 b2)
  | _, _ => false
  end.

(** set_bucket_counts(i, bucket_counts(i) + delta); an index outside the repeated field is undefined *)
Definition add_bucket (i delta : Z) (b : list Z) : outcome (list Z) :=
  if i <? 0 then UB IndexOutOfRange else
  match b !! Z.to_nat i with
  | None => UB IndexOutOfRange
  | Some c => let! c' := add64 Strict c delta in Ok (<[Z.to_nat i := c']> b)
  end.

Section sample.
(** log2 of the C library: any function *)
Variable log2 : double -> double.

(** utils/distribution_helper.cc:134-147 UpdateExponentialBucketCount, the index *)
Definition exponential_index (num_finite : Z) (growth scale value : double) : outcome Z :=
  if fle scale value then
    let! t := f_to_int (fdiv (log2 (fdiv value scale)) (log2 growth)) in
    let! i := add32 1 t in
    let! top := add32 num_finite 1 in
    if top <? i then Ok top else Ok i
  else Ok 0.

(** utils/distribution_helper.cc:149-166 UpdateLinearBucketCount, the index *)
Definition linear_upper (num_finite : Z) (width offset : double) : double :=
  fadd offset (fmul (f_of_int num_finite) width).
Definition linear_index (num_finite : Z) (width offset value : double) : outcome Z :=
  let upper_bound := linear_upper num_finite width offset in
  let lower_bound := offset in
  if flt value lower_bound || is_nan value then Ok 0
  else if fle upper_bound value then add32 num_finite 1
  else let! t := f_to_int (fdiv (fsub value lower_bound) width) in add32 1 t.

(** std::upper_bound: the binary search of the common standard libraries, on positions [first, first+len).
    Simplification: the C++ standard leaves the behaviour open on unsorted ranges; this loop is what
    libstdc++ and libc++ run. *)
Fixpoint upper_bound_loop (fuel : nat) (b : list double) (value : double) (first len : nat) : nat :=
  match fuel with
  | O => first
  | S fuel =>
    if Nat.eqb len 0 then first
    else let half := Nat.div2 len in
         match b !! (first + half)%nat with
         | Some mid => if flt value mid then upper_bound_loop fuel b value first half
                       else upper_bound_loop fuel b value (first + half + 1) (len - half - 1)
         | None => first
         end
  end.
Definition std_upper_bound (b : list double) (value : double) : nat :=
  upper_bound_loop (S (length b)) b value 0 (length b).

(** utils/distribution_helper.cc:168-180 UpdateExplicitBucketCount, the index *)
Definition explicit_index (bounds : list double) (value : double) : outcome Z :=
  match bounds with
  | [] => UB IndexOutOfRange
  | b0 :: _ => if fle b0 value then Ok (Z.of_nat (std_upper_bound bounds value)) else Ok 0
  end.

(** utils/distribution_helper.cc:250-270 AddSample.  The result is the status and the final *distribution. *)
Definition AddSample (value : double) (d : distribution) : outcome (status_code * distribution) :=
  match d_option d with
  | BNotSet => Ok (SInvalidArgument, d)
  | o =>
    let! s := UpdateGeneralStatistics b64 value (d_stats d) in
    let! i := match o with
              | BExponential n g sc => exponential_index n g sc value
              | BLinear n w off => linear_index n w off value
              | BExplicit b => explicit_index b value
              | BNotSet => Ok 0
              end in
    let! b := add_bucket i 1 (d_buckets d) in
    Ok (SOk, set_buckets b (set_stats s d))
  end.
End sample.

(** RepeatedField::Resize(n, 0).
    Simplification: running out of memory is not modelled. *)
Definition resize0 (n : nat) (b : list Z) : list Z := take n b ++ replicate (n - length b) 0.

(** utils/distribution_helper.cc:184-208 InitExponential *)
Definition InitExponential (num_finite : Z) (growth scale : double) (d : distribution)
  : outcome (status_code * distribution) :=
  if num_finite <=? 0 then Ok (SInvalidArgument, d)
  else if fle growth f_one then Ok (SInvalidArgument, d)
  else if fle scale f_zero then Ok (SInvalidArgument, d)
  else let! n2 := add32 num_finite 2 in
       Ok (SOk, set_buckets (resize0 (Z.to_nat n2) (d_buckets d)) (set_option (BExponential num_finite growth scale) d)).

(** utils/distribution_helper.cc:210-229 InitLinear *)
Definition InitLinear (num_finite : Z) (width offset : double) (d : distribution)
  : outcome (status_code * distribution) :=
  if num_finite <=? 0 then Ok (SInvalidArgument, d)
  else if fle width f_zero then Ok (SInvalidArgument, d)
  else let! n2 := add32 num_finite 2 in
       Ok (SOk, set_buckets (resize0 (Z.to_nat n2) (d_buckets d)) (set_option (BLinear num_finite width offset) d)).

(** std::is_sorted: no element is smaller than its predecessor *)
Fixpoint is_sorted (b : list double) : bool :=
  match b with
  | x :: (y :: _) as t => negb (flt y x) && is_sorted t
  | _ => true
  end.
(** std::adjacent_find(...) != end: two neighbours compare equal *)
Fixpoint has_adjacent_equal (b : list double) : bool :=
  match b with
  | x :: (y :: _) as t => feq x y || has_adjacent_equal t
  | _ => false
  end.

(** utils/distribution_helper.cc:231-248 InitExplicit.  Bounds are appended to an already present
    explicit_buckets message.  Simplification: fewer than 2^31 - 1 bounds. *)
Definition InitExplicit (bounds : list double) (d : distribution) : outcome (status_code * distribution) :=
  if negb (is_sorted bounds) then Ok (SInvalidArgument, d)
  else if has_adjacent_equal bounds then Ok (SInvalidArgument, d)
  else let old := match d_option d with BExplicit b => b | _ => [] end in
       Ok (SOk, set_buckets (resize0 (length bounds + 1) (d_buckets d)) (set_option (BExplicit (old ++ bounds)) d)).

(** the loop of utils/distribution_helper.cc:303-305 *)
Fixpoint merge_buckets (from to : list Z) : outcome (list Z) :=
  match from, to with
  | f :: from', t :: to' =>
      let! c := add64 Strict t f in let! r := merge_buckets from' to' in Ok (c :: r)
  | [], _ => Ok to
  | _ :: _, [] => UB IndexOutOfRange
  end.

(** utils/distribution_helper.cc:272-307 Merge.  The result is the status and the final *to. *)
Definition Merge (from to : distribution) : outcome (status_code * distribution) :=
  if negb (BucketsApproximatelyEqual from to) then Ok (SInvalidArgument, to)
  else if negb (Nat.eqb (length (d_buckets from)) (length (d_buckets to))) then Ok (SInvalidArgument, to)
  else if d_count from <=? 0 then Ok (SOk, to)
  else if d_count to <=? 0 then Ok (SOk, from)
  else
    let! s := MergeStatistics b64 (d_stats from) (d_stats to) in
    let! b := merge_buckets (d_buckets from) (d_buckets to) in
    Ok (SOk, set_buckets b (set_stats s to)).
