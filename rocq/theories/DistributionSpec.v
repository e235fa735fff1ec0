(** Specification vocabulary for distributions. *)
From Coq Require Import QArith.
From Verif Require Import Proto Distribution.
Open Scope Z_scope.

(** [built log2 d samples]: [d] was produced by one Init call on an empty message followed by successful sample
    additions and merges of other such distributions; [samples] lists the samples that went in, oldest target
    samples first. *)
Inductive built (log2 : double -> double) : distribution -> list double -> Prop :=
| built_exponential n g s d : InitExponential n g s empty_distribution = Ok (SOk, d) -> built log2 d []
| built_linear n w o d : InitLinear n w o empty_distribution = Ok (SOk, d) -> built log2 d []
| built_explicit b d : InitExplicit b empty_distribution = Ok (SOk, d) -> built log2 d []
| built_sample d l v d' : built log2 d l -> AddSample log2 v d = Ok (SOk, d') -> built log2 d' (l ++ [v])
| built_merge d l f lf d' : built log2 d l -> built log2 f lf -> Merge f d = Ok (SOk, d') -> built log2 d' (l ++ lf).

(** The number of buckets a layout calls for. *)
Definition layout_buckets (o : bucket_option) : Z :=
  match o with
  | BNotSet => 0
  | BLinear n _ _ | BExponential n _ _ => n + 2
  | BExplicit b => Z.of_nat (length b) + 1
  end.


(** Every bound is smaller than every later one. *)
Definition strictly_increasing (b : list double) : Prop :=
  forall i j x y, (i < j)%nat -> b !! i = Some x -> b !! j = Some y -> flt x y = true.

(** Bucket [i] of an explicit layout holds [v]: at or above the bound before it, below the bound after it. *)
Definition in_explicit_bucket (b : list double) (i : nat) (v : double) : Prop :=
  (forall j x, i = S j -> b !! j = Some x -> fle x v = true) /\
  (forall x, b !! i = Some x -> flt v x = true) /\ (i <= length b)%nat.

(** [m] is the least (greatest) element of [l] in the order of doubles (both zeros are equal). *)
Definition is_least (m : double) (l : list double) : Prop := m ∈ l /\ forall x, x ∈ l -> fle m x = true.
Definition is_greatest (m : double) (l : list double) : Prop := m ∈ l /\ forall x, x ∈ l -> fle x m = true.

Definition no_nan (l : list double) : Prop := forall x, x ∈ l -> is_nan x = false.

(** ** Exact arithmetic: the statistics code run over the rationals. *)
Definition q_arith : arith :=
  Arith Q Qplus Qminus Qmult Qdiv inject_Z (fun x y => negb (Qle_bool y x)).

(** [q_built s samples]: statistics reached in exact arithmetic by additions and merges. *)
Inductive q_built : stats Q -> list Q -> Prop :=
| q_built_first v s0 s : s_count s0 = 0 -> UpdateGeneralStatistics q_arith v s0 = Ok s -> q_built s [v]
| q_built_add v s l s' : q_built s l -> UpdateGeneralStatistics q_arith v s = Ok s' -> q_built s' (l ++ [v])
| q_built_merge f lf t lt s' : q_built f lf -> q_built t lt -> MergeStatistics q_arith f t = Ok s' ->
    q_built s' (lt ++ lf).

Definition q_sum (l : list Q) : Q := foldr Qplus 0%Q l.
(** mean of a non-empty list, and sum of squared deviations from it *)
Definition q_mean (l : list Q) : Q := (q_sum l / inject_Z (Z.of_nat (length l)))%Q.
Definition q_ssd (l : list Q) : Q := q_sum (map (fun x => ((x - q_mean l) * (x - q_mean l))%Q) l).

(** A double: a well-formed binary64 number. *)
Definition is_double (x : double) : Prop := SpecFloat.valid_binary 53 1024 x = true.
Definition finite (x : double) : Prop := match x with S754_zero _ | S754_finite _ _ _ => True | _ => False end.
(** 1024 and 2^-20 *)
Definition f_1024 : double := f_of_int 1024.
Definition f_2m20 : double := S754_finite false 4503599627370496 (-72).

(** What is needed of log2: on finite numbers from 1 up it is a number between 0 and 1024. *)
Definition sane_log2 (log2 : double -> double) : Prop :=
  forall x, is_double x -> finite x -> fle f_one x = true ->
  is_double (log2 x) /\ fle f_zero (log2 x) = true /\ fle (log2 x) f_1024 = true.

(** All parameters of the layout are finite doubles. *)
Definition layout_finite (o : bucket_option) : Prop :=
  match o with
  | BNotSet => False
  | BLinear _ x y | BExponential _ x y => is_double x /\ finite x /\ is_double y /\ finite y
  | BExplicit b => Forall (fun x => is_double x /\ finite x) b
  end.

(** The largest finite double, infinity and 2. *)
Definition f_max : double := S754_finite false 9007199254740991 971.
Definition f_inf : double := S754_infinity false.
Definition f_two : double := f_of_int 2.


(** Two parameters agree up to a relative difference of 1e-5 (computed in doubles), and two layouts agree when
    they are of the same kind with as many buckets and agreeing parameters. *)
Definition close (x y : double) : Prop :=
  fle (SFabs (fsub x y)) (fmul (S754_finite false 5902958103587057 (-69)) (SFabs x)) = true.
Inductive similar_layout : bucket_option -> bucket_option -> Prop :=
| similar_linear n w1 o1 w2 o2 : close w1 w2 -> close o1 o2 -> similar_layout (BLinear n w1 o1) (BLinear n w2 o2)
| similar_exponential n g1 s1 g2 s2 : close g1 g2 -> close s1 s2 ->
    similar_layout (BExponential n g1 s1) (BExponential n g2 s2)
| similar_explicit b1 b2 : length b1 = length b2 -> (forall i x y, b1 !! i = Some x -> b2 !! i = Some y -> close x y) ->
    similar_layout (BExplicit b1) (BExplicit b2).
