(** C82-C83: which bucket of a linear or exponential layout a sample is counted in; C27: which parameters count as equal. *)
From Coq Require Import Reals Lra.
From Verif Require Import Proto Distribution DistributionSpec DistributionRSpec DistributionLinear DistributionExp DistributionClose.
Open Scope Z_scope.

(** ** C82 *)
(** Ten buckets of width 0.1 from 0 on: 0.9, which is below nine times 0.1, is counted in bucket 10. *)
Theorem C82_linear_exact_refuted : exists d, InitLinear 10 f_tenth f_zero empty_distribution = Ok (SOk, d) /\
  forall log2, exists d', AddSample log2 f_nine_tenths d = Ok (SOk, d') /\ counted_in 10 d d' /\
    in_linear_bucket 0 10 (real f_tenth) (real f_zero) 9 (real f_nine_tenths) /\
    ~ in_linear_bucket 0 10 (real f_tenth) (real f_zero) 10 (real f_nine_tenths).
Proof. exact linear_inexact. Qed.
Print Assumptions C82_linear_exact_refuted.

(** Exactly the right bucket when sample, width and offset are multiples of one power of two. *)
Theorem C82_linear_grid_partial : forall log2 d samples n w o v,
  built log2 d samples -> d_count d < int64_max -> d_option d = BLinear n w o ->
  is_double w -> is_double o -> finite (linear_upper n w o) ->
  is_double v -> finite v -> on_one_grid n w o v ->
  exists d' i, AddSample log2 v d = Ok (SOk, d') /\ counted_in i d d' /\
    forall j, in_linear_bucket 0 n (real w) (real o) j (real v) <-> j = i.
Proof. intros log2 d samples n w o v H1 H2 H3 H4 H5 H6. exact (add_exact log2 d samples n w o H1 H2 H3 H4 H5 H6 v). Qed.
Print Assumptions C82_linear_grid_partial.

(** In general, the right bucket up to a millionth of a width. *)
Theorem C82_linear_near_partial : forall log2 d samples n w o v,
  built log2 d samples -> d_count d < int64_max -> d_option d = BLinear n w o ->
  is_double w -> is_double o -> finite (linear_upper n w o) ->
  is_double v -> finite v ->
  exists d' i, AddSample log2 v d = Ok (SOk, d') /\ counted_in i d d' /\
    in_linear_bucket (linear_slack n (real w) (real o) i) n (real w) (real o) i (real v).
Proof. intros log2 d samples n w o v H1 H2 H3 H4 H5 H6. exact (add_near log2 d samples n w o H1 H2 H3 H4 H5 H6 v). Qed.
Print Assumptions C82_linear_near_partial.

(** A larger sample is never counted in a lower bucket. *)
Theorem C82_linear_order_partial : forall log2 d samples n w o v v',
  built log2 d samples -> d_count d < int64_max -> d_option d = BLinear n w o ->
  is_double w -> is_double o -> finite (linear_upper n w o) ->
  is_double v -> is_double v' -> fle v v' = true ->
  exists d1 d2 i i', AddSample log2 v d = Ok (SOk, d1) /\ counted_in i d d1 /\
    AddSample log2 v' d = Ok (SOk, d2) /\ counted_in i' d d2 /\ i <= i'.
Proof. intros log2 d samples n w o v v' H1 H2 H3 H4 H5 H6. exact (add_order log2 d samples n w o H1 H2 H3 H4 H5 H6 v v'). Qed.
Print Assumptions C82_linear_order_partial.

(** NaN and minus infinity are counted below, plus infinity above the finite buckets. *)
Theorem C82_linear_special_partial : forall log2 d samples n w o v i,
  built log2 d samples -> d_count d < int64_max -> d_option d = BLinear n w o ->
  is_double w -> is_double o -> finite (linear_upper n w o) ->
  (v = S754_nan \/ v = S754_infinity true) /\ i = 0 \/ v = S754_infinity false /\ i = n + 1 ->
  exists d', AddSample log2 v d = Ok (SOk, d') /\ counted_in i d d'.
Proof. intros log2 d samples n w o v i H1 H2 H3 H4 H5 H6. exact (add_special log2 d samples n w o H1 H2 H3 H4 H5 H6 v i). Qed.
Print Assumptions C82_linear_special_partial.

(** Six buckets of width 5 from -3 on, and the sample 17. *)
Example C82_example : exists d, built (fun x => x) d [] /\ d_count d < int64_max /\
  d_option d = BLinear 6 (f_of_int 5) (f_of_int (-3)) /\
  is_double (f_of_int 5) /\ is_double (f_of_int (-3)) /\ finite (linear_upper 6 (f_of_int 5) (f_of_int (-3))) /\
  is_double (f_of_int 17) /\ finite (f_of_int 17) /\ on_one_grid 6 (f_of_int 5) (f_of_int (-3)) (f_of_int 17).
Proof.
  eexists. split; [eapply (built_linear _ 6 (f_of_int 5) (f_of_int (-3))); vm_compute; reflexivity|].
  split; [reflexivity|]. split; [reflexivity|]. split; [reflexivity|]. split; [reflexivity|]. split; [vm_compute; exact I|].
  split; [reflexivity|]. split; [exact I|].
  exists 0, 5, (-3), 17. rewrite !real_FR. cbn [powerRZ]. rewrite !Rmult_1_r.
  split; [done|]. split; [exact (proj2 (proj2 (Float64Proofs.f_of_int_spec 5 eq_refl)))|].
  split; [exact (proj2 (proj2 (Float64Proofs.f_of_int_spec (-3) eq_refl)))|].
  split; [exact (proj2 (proj2 (Float64Proofs.f_of_int_spec 17 eq_refl)))|done].
Qed.

(** ** C83 *)
(** Growth factor 2, scale 1: whatever correctly rounding log2 is used, the double before 256 is counted in bucket 9. *)
Theorem C83_exponential_exact_refuted : exists d, InitExponential 10 f_two f_one empty_distribution = Ok (SOk, d) /\
  forall log2, nearest_log2 log2 -> exists d', AddSample log2 f_before_256 d = Ok (SOk, d') /\ counted_in 9 d d' /\
    in_exponential_bucket 0 10 (real f_two) (real f_one) 8 (real f_before_256) /\
    ~ in_exponential_bucket 0 10 (real f_two) (real f_one) 9 (real f_before_256).
Proof. exact exp_inexact. Qed.
Print Assumptions C83_exponential_exact_refuted.

(** The right bucket up to a factor of 1 + 2^-35. *)
Theorem C83_exponential_near_partial : forall log2 d samples n g s v,
  accurate_log2 log2 -> built log2 d samples -> d_count d < int64_max -> d_option d = BExponential n g s ->
  is_double g -> is_double s -> finite g -> finite s -> (1 + / 2 ^ 19 <= real g)%R ->
  is_double v -> finite v -> (real v <= real s * 2 ^ 1023)%R ->
  exists d' i, AddSample log2 v d = Ok (SOk, d') /\ counted_in i d d' /\
    in_exponential_bucket (/ 2 ^ 35) n (real g) (real s) i (real v).
Proof. intros log2 d samples n g s v H1 H2 H3 H4 H5 H6 H7 H8 H9. exact (exp_add_near log2 d samples n g s H1 H2 H3 H4 H5 H6 H7 H8 H9 v). Qed.
Print Assumptions C83_exponential_near_partial.

(** A larger sample is never counted in a lower bucket, if log2 is monotone. *)
Theorem C83_exponential_order_partial : forall log2 d samples n g s v v',
  accurate_log2 log2 -> monotone_log2 log2 ->
  built log2 d samples -> d_count d < int64_max -> d_option d = BExponential n g s ->
  is_double g -> is_double s -> finite g -> finite s -> (1 + / 2 ^ 19 <= real g)%R ->
  is_double v -> finite v -> is_double v' -> finite v' -> (real v' <= real s * 2 ^ 1023)%R -> fle v v' = true ->
  exists d1 d2 i i', AddSample log2 v d = Ok (SOk, d1) /\ counted_in i d d1 /\
    AddSample log2 v' d = Ok (SOk, d2) /\ counted_in i' d d2 /\ i <= i'.
Proof.
  intros log2 d samples n g s v v' H1 M H2 H3 H4 H5 H6 H7 H8 H9.
  exact (exp_add_order log2 d samples n g s H1 H2 H3 H4 H5 H6 H7 H8 H9 v v' M).
Qed.
Print Assumptions C83_exponential_order_partial.

(** The correctly rounded logarithm is accurate, nearest and monotone; with it, a layout with growth factor 10, scale 1
    and the sample 1000. *)
Example C83_example : accurate_log2 log2_cr /\ nearest_log2 log2_cr /\ monotone_log2 log2_cr /\
  (exists d, built log2_cr d [] /\ d_count d < int64_max /\ d_option d = BExponential 8 (f_of_int 10) f_one) /\
  is_double (f_of_int 10) /\ is_double f_one /\ finite (f_of_int 10) /\ finite f_one /\ (1 + / 2 ^ 19 <= real (f_of_int 10))%R /\
  is_double (f_of_int 1000) /\ finite (f_of_int 1000) /\ (real (f_of_int 1000) <= real f_one * 2 ^ 1023)%R.
Proof.
  split; [exact log2_cr_accurate|]. split; [exact log2_cr_nearest|]. split; [exact log2_cr_monotone|].
  split; [eexists; split; [eapply (built_exponential _ 8 (f_of_int 10) f_one); vm_compute; reflexivity|split; vm_compute; done]|].
  assert (real f_one = 1%R) as -> by (rewrite real_FR; exact (proj2 (proj2 (Float64Proofs.f_of_int_spec 1 eq_refl)))).
  assert (real (f_of_int 10) = 10%R) as -> by (rewrite real_FR; exact (proj2 (proj2 (Float64Proofs.f_of_int_spec 10 eq_refl)))).
  assert (real (f_of_int 1000) = 1000%R) as -> by (rewrite real_FR; exact (proj2 (proj2 (Float64Proofs.f_of_int_spec 1000 eq_refl)))).
  assert (1000 <= 1 * 2 ^ 1023)%R as B.
  { rewrite Rmult_1_l. apply Rle_trans with (2 ^ 10)%R; [lra|]. apply Rle_pow; [lra|lia]. }
  assert (1 + / 2 ^ 19 <= 10)%R as G.
  { assert (/ 2 ^ 19 <= 1)%R; [|lra]. rewrite <- Rinv_1. apply Rinv_le_contravar; lra. }
  split; [reflexivity|]. split; [reflexivity|]. split; [exact I|]. split; [exact I|]. split; [exact G|].
  split; [reflexivity|]. split; [exact I|exact B].
Qed.

(** ** C27 *)
(** Two parameters of ordinary size that count as equal (C27_merges_exactly_similar_layouts) differ by at most 1.000002e-5 of the
    first, and all that differ by at most 0.999998e-5 do. *)
Theorem C27_tolerance : forall x y, is_double x -> is_double y -> finite x -> finite y ->
  (powerRZ 2 (-900) <= Rabs (real x) <= powerRZ 2 900)%R -> (Rabs (real y) <= powerRZ 2 900)%R ->
  (close x y -> Rabs (real x - real y) <= 1000002 / 100000000000 * Rabs (real x))%R /\
  ((Rabs (real x - real y) <= 999998 / 100000000000 * Rabs (real x))%R -> close x y).
Proof. exact tolerance. Qed.
Print Assumptions C27_tolerance.
(** An offset or bound 0 counts as equal to 0 only. *)
Theorem C27_tolerance_zero : forall x y, is_double x -> is_double y -> finite x -> finite y ->
  real x = 0%R -> (Rabs (real y) <= powerRZ 2 900)%R -> close x y <-> real y = 0%R.
Proof. exact tolerance_zero. Qed.
Print Assumptions C27_tolerance_zero.
(** 1 + 2^-17 (7.6e-6 more than 1) counts as equal to 1, and 1 + 2^-16 (1.5e-5 more) does not. *)
Example C27_example_tolerance : close f_one (S754_finite false (4503599627370496 + 34359738368) (-52)) /\
  ~ close f_one (S754_finite false (4503599627370496 + 68719476736) (-52)).
Proof. split; vm_compute; congruence. Qed.
