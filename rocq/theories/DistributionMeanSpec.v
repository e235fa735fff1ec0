(** Specification vocabulary for the mean and the sum of squared deviations of doubles, over the real numbers. *)
From Coq Require Import Reals.
From Verif Require Import Proto Distribution DistributionSpec DistributionRSpec.
Open Scope Z_scope.

(** The exact sum and the exact mean of a list of samples. *)
Definition exact_sum (l : list double) : R := foldr (fun x s => (real x + s)%R) 0%R l.
Definition exact_mean (l : list double) : R := (exact_sum l / IZR (Z.of_nat (length l)))%R.

(** All samples are ordinary numbers of size at most [B], and there are at most 2^50 of them. *)
Definition moderate (B : R) (l : list double) : Prop :=
  (forall x, x ∈ l -> is_double x /\ finite x /\ (Rabs (real x) <= B)%R) /\ Z.of_nat (length l) <= 2 ^ 50.

(** [x] is an ordinary number at least as large as [y]. *)
Definition grown (y x : double) : Prop := is_double x /\ finite x /\ (real y <= real x)%R.

(** The exact sum of the squared deviations from the exact mean. *)
Definition exact_ssd (l : list double) : R := foldr (fun x s => ((real x - exact_mean l) * (real x - exact_mean l) + s)%R) 0%R l.
(** What rounding may add up to for [n] samples of size at most [B]. *)
Definition spread_error (n : nat) (B : R) : R := let z := (INR n * INR n / 2 ^ 53)%R in (512 * z * (1 + z) * (B * B))%R.
