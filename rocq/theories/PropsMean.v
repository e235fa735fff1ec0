(** C84, C85, C91: the mean and the sum of squared deviations in binary64 arithmetic. *)
From Coq Require Import Reals Lra.
From Verif Require Import Proto Distribution DistributionSpec DistributionRSpec DistributionLinear DistributionMeanSpec DistributionSsd DistributionAccuracy.
Open Scope Z_scope.

(** ** C84: the mean *)
(** The reported mean need not lie between the reported minimum and maximum: three samples 0.1. *)
Theorem C84_mean_between_refuted : exists d l, (forall log2, built log2 d l) /\
  (forall x, x ∈ l -> is_double x /\ finite x) /\ flt (d_max d) (d_mean d) = true.
Proof.
  eexists _, _. split; [exact tenths_built|]. split; [|vm_compute; reflexivity].
  intros x Hx. assert (x = f_tenth) as -> by set_solver. done.
Qed.
Print Assumptions C84_mean_between_refuted.

(** The mean of two large ordinary numbers is reported as infinite. *)
Theorem C84_mean_overflow_refuted : exists d l, (forall log2, built log2 d l) /\
  (forall x, x ∈ l -> is_double x /\ finite x) /\ d_mean d = f_inf.
Proof.
  eexists _, _. split; [exact large_built|]. split; [|vm_compute; reflexivity].
  intros x Hx. assert (x = f_max) as -> by set_solver. done.
Qed.
Print Assumptions C84_mean_overflow_refuted.

(** For samples of size at most [B], along every history of additions and merges: the reported mean is within
    [(n - 1) B / 2^50] of the exact mean of the [n] samples. *)
Theorem C84_mean_near_partial : forall (B : R) log2 d l,
  (powerRZ 2 (-1000) <= B <= powerRZ 2 900)%R -> built log2 d l -> moderate B l -> l <> [] ->
  is_double (d_mean d) /\ finite (d_mean d) /\
  (Rabs (real (d_mean d) - exact_mean l) <= IZR (Z.of_nat (length l) - 1) * B / 2 ^ 50)%R.
Proof. exact mean_near. Qed.
Print Assumptions C84_mean_near_partial.

(** A sample that differs from the mean does not drag the mean beyond itself. *)
Theorem C84_not_beyond_partial : forall (B : R) log2 d l v d',
  (powerRZ 2 (-1000) <= B <= powerRZ 2 900)%R -> built log2 d l -> moderate B (l ++ [v]) -> l <> [] ->
  AddSample log2 v d = Ok (SOk, d') ->
  ((real (d_mean d) < real v -> real (d_mean d') <= real v) /\ (real v < real (d_mean d) -> real v <= real (d_mean d')))%R.
Proof. exact not_beyond. Qed.
Print Assumptions C84_not_beyond_partial.

(** ** C85: the sum of squared deviations *)
(** With two large samples it is reported as not a number. *)
Theorem C85_spread_overflow_refuted : exists d l, (forall log2, built log2 d l) /\
  (forall x, x ∈ l -> is_double x /\ finite x) /\ d_ssd d = S754_nan.
Proof.
  eexists _, _. split; [exact large_built|]. split; [|vm_compute; reflexivity].
  intros x Hx. assert (x = f_max) as -> by set_solver. done.
Qed.
Print Assumptions C85_spread_overflow_refuted.

(** For samples of moderate size it is never negative, along every history of additions and merges. *)
Theorem C85_spread_nonneg_partial : forall (B : R) log2 d l,
  (powerRZ 2 (-500) <= B <= powerRZ 2 400)%R -> built log2 d l -> moderate B l -> grown f_zero (d_ssd d).
Proof. exact spread_nonneg. Qed.
Print Assumptions C85_spread_nonneg_partial.

(** It does not go down when a sample is added. *)
Theorem C85_spread_sample_partial : forall (B : R) log2 d l v d',
  (powerRZ 2 (-500) <= B <= powerRZ 2 400)%R -> built log2 d l -> moderate B (l ++ [v]) ->
  AddSample log2 v d = Ok (SOk, d') -> grown (d_ssd d) (d_ssd d').
Proof. exact spread_sample. Qed.
Print Assumptions C85_spread_sample_partial.

(** A merged distribution has at least the spread of either part. *)
Theorem C85_spread_merge_partial : forall (B : R) log2 f lf d l d',
  (powerRZ 2 (-500) <= B <= powerRZ 2 400)%R -> built log2 d l -> built log2 f lf -> moderate B (l ++ lf) ->
  Merge f d = Ok (SOk, d') -> grown (d_ssd d) (d_ssd d') /\ grown (d_ssd f) (d_ssd d').
Proof. exact spread_merged. Qed.
Print Assumptions C85_spread_merge_partial.

(** ** C91: how close the sum of squared deviations is *)
(** It depends on the order of the samples: 0.1, 0.1, 1 and 0.1, 1, 0.1. *)
Theorem C91_order_refuted : exists d d' l l', (forall log2, built log2 d l) /\ (forall log2, built log2 d' l') /\ l ≡ₚ l' /\
  (forall x, x ∈ l -> is_double x /\ finite x) /\ d_ssd d <> d_ssd d'.
Proof.
  eexists _, _, _, _. split; [exact tenths_one_built|]. split; [exact tenth_one_tenth_built|]. split; [exact tenths_one_perm|].
  split; [exact tenths_one_finite|]. vm_compute. congruence.
Qed.
Print Assumptions C91_order_refuted.

(** Along every history of additions and merges of [n] samples of size at most [B], it differs from the exact sum of squared
    deviations from the exact mean by at most [512 z (1 + z) B^2], where [z] is [n^2 / 2^53]. *)
Theorem C91_spread_near_partial : forall (B : R) log2 d l,
  (powerRZ 2 (-500) <= B <= powerRZ 2 400)%R -> built log2 d l -> moderate B l ->
  is_double (d_ssd d) /\ finite (d_ssd d) /\ (Rabs (real (d_ssd d) - exact_ssd l) <= spread_error (length l) B)%R.
Proof. exact spread_near. Qed.
Print Assumptions C91_spread_near_partial.

(** So two histories of the same samples, in whatever order and however they were merged, agree up to twice the error. *)
Theorem C91_any_order_partial : forall (B : R) log2 log2' d l d' l',
  (powerRZ 2 (-500) <= B <= powerRZ 2 400)%R -> built log2 d l -> built log2' d' l' -> moderate B l -> l ≡ₚ l' ->
  (l <> [] -> Rabs (real (d_mean d) - real (d_mean d')) <= 2 * (IZR (Z.of_nat (length l) - 1) * B / 2 ^ 50))%R /\
  (Rabs (real (d_ssd d) - real (d_ssd d')) <= 2 * spread_error (length l) B)%R.
Proof. exact any_order. Qed.
Print Assumptions C91_any_order_partial.

(** ** The hypotheses are met *)
(** Samples 0.1 are of size at most 1, and 1 is in the range of bounds. *)
Example C84_example_bound : (powerRZ 2 (-1000) <= 1 <= powerRZ 2 900)%R /\ (powerRZ 2 (-500) <= 1 <= powerRZ 2 400)%R.
Proof. exact one_in_range. Qed.
Example C84_example : moderate 1 [f_tenth; f_tenth; f_tenth].
Proof. exact tenths_moderate. Qed.
(** Adding 1 to the three samples 0.1 succeeds; so does merging the distribution into itself. *)
Example C84_example_add : exists d', AddSample (fun x => x) f_one (after f_tenth (after f_tenth (after f_tenth one_bound))) = Ok (SOk, d') /\
  flt (d_ssd (after f_tenth (after f_tenth (after f_tenth one_bound)))) (d_ssd d') = true.
Proof. eexists. split; vm_compute; reflexivity. Qed.
Example C85_example_merge : let d := after f_one (after f_tenth one_bound) in
  exists d', Merge d d = Ok (SOk, d') /\ flt (d_ssd d) (d_ssd d') = true /\ d_count d' = 4.
Proof. eexists. split; [|split]; vm_compute; reflexivity. Qed.
(** The two orders of the samples 0.1, 0.1, 1 meet the hypotheses of C91, and the error for a thousand samples of size at most 1
    is below 2^-23. *)
Example C91_example : moderate 1 [f_tenth; f_tenth; f_one] /\ (spread_error 1000 1 <= / 2 ^ 23)%R.
Proof. exact tenths_one_moderate. Qed.
