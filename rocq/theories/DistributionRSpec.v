(** Specification vocabulary for the buckets of linear and exponential layouts, over the real numbers. *)
From Coq Require Import Reals.
From Verif Require Import Proto Distribution DistributionSpec.
Open Scope Z_scope.

(** The real number a finite double stands for. *)
Definition real (x : double) : R :=
  match x with
  | S754_finite s m e => ((if s then -1 else 1) * IZR (Z.pos m) * powerRZ 2 e)%R
  | _ => 0%R
  end.

(** Bucket [i] of a linear layout with [n] finite buckets of width [w] from [o] on holds [v].  Bucket 0 lies below
    the offset, bucket [n + 1] at and above the upper end, bucket [i] in between from [o + (i - 1) w] up to
    [o + i w], as the service's Distribution message describes its linear layout.  [eps] widens every boundary but the
    offset; [eps = 0] is the layout itself. *)
Definition in_linear_bucket (eps : R) (n : Z) (w o : R) (i : Z) (v : R) : Prop :=
  (i = 0 /\ (v < o)%R) \/
  (1 <= i <= n /\ (o <= v)%R /\ (o + IZR (i - 1) * w - eps <= v < o + IZR i * w + eps)%R) \/
  (i = n + 1 /\ (o <= v)%R /\ (o + IZR n * w - eps <= v)%R).

(** How far the computed boundaries may be off: a millionth of a width, and for the upper end also the rounding of
    the offset. *)
Definition linear_slack (n : Z) (w o : R) (i : Z) : R :=
  (w / 2 ^ 20 + (if Z.eq_dec i (n + 1)%Z then Rabs o / 2 ^ 53 else 0))%R.

(** Sample, width and offset are whole multiples of one power of two (for example whole numbers), and the layout
    does not reach beyond 2^52 of these units. *)
Definition on_one_grid (n : Z) (w o v : double) : Prop :=
  exists e a b c, -1074 <= e /\
    real w = (IZR a * powerRZ 2 e)%R /\ real o = (IZR b * powerRZ 2 e)%R /\ real v = (IZR c * powerRZ 2 e)%R /\
    Z.abs b + n * a <= 2 ^ 52.

(** The two distributions differ in their bucket counts by one sample in bucket [i], an existing bucket. *)
Definition counted_in (i : Z) (d d' : distribution) : Prop :=
  0 <= i < Z.of_nat (length (d_buckets d)) /\ d_buckets d' = alter (Z.add 1) (Z.to_nat i) (d_buckets d).

(** The logarithm to base 2. *)
Definition lg (x : R) : R := (ln x / ln 2)%R.

(** Bucket [i] of an exponential layout with [n] finite buckets, growth factor [g] and scale [s] holds [v].  Bucket 0
    lies below the scale, bucket [n + 1] at and above [s g^n], bucket [i] in between from [s g^(i - 1)] up to
    [s g^i], as the service's Distribution message describes its exponential layout.  Every boundary but the scale may
    be off by the factor [1 + eps]; [eps = 0] is the layout itself. *)
Definition in_exponential_bucket (eps : R) (n : Z) (g s : R) (i : Z) (v : R) : Prop :=
  (i = 0 /\ (v < s)%R) \/
  (1 <= i <= n /\ (s <= v)%R /\ (s * powerRZ g (i - 1) <= v * (1 + eps))%R /\ (v < s * powerRZ g i * (1 + eps))%R) \/
  (i = n + 1 /\ (s <= v)%R /\ (s * powerRZ g n <= v * (1 + eps))%R).

(** What is asked of the C library's log2: on finite numbers from 1 up it is within one part in 2^52 of the
    logarithm. *)
Definition accurate_log2 (log2 : double -> double) : Prop :=
  forall x, is_double x -> finite x -> (1 <= real x)%R ->
  is_double (log2 x) /\ finite (log2 x) /\ (Rabs (real (log2 x) - lg (real x)) <= Rabs (lg (real x)) / 2 ^ 52)%R.

(** The best that a library can do: no double is nearer to the logarithm. *)
Definition nearest_log2 (log2 : double -> double) : Prop :=
  forall x, is_double x -> finite x -> (1 <= real x)%R ->
  is_double (log2 x) /\ finite (log2 x) /\
  forall y, is_double y -> finite y -> (Rabs (real (log2 x) - lg (real x)) <= Rabs (real y - lg (real x)))%R.

(** Larger arguments never have smaller computed logarithms. *)
Definition monotone_log2 (log2 : double -> double) : Prop :=
  forall x y, is_double x -> finite x -> is_double y -> finite y -> (1 <= real x)%R -> fle x y = true ->
  fle (log2 x) (log2 y) = true.
