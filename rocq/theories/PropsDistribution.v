(** Property theorems about utils/distribution_helper.cc (C23-C29).  Specification: DistributionSpec.v.
    [log2] is the C library function: an arbitrary argument. *)
From Coq Require Import QArith.
From Verif Require Import Proto Distribution DistributionSpec DistributionProofs Float64Proofs.
Open Scope Z_scope.

(** A concrete distribution used below: bounds 1 and 2, samples 1 and 2. *)
Definition ex_dist : distribution :=
  Distribution 2 (S754_finite false 6755399441055744 (-52)) f_one f_two (S754_finite false 4503599627370496 (-53))
    [0; 1; 1] (BExplicit [f_one; f_two]).
Definition ex_empty : distribution :=
  Distribution 0 f_zero f_zero f_zero f_zero [0; 0; 0] (BExplicit [f_one; f_two]).
Definition ex_dist1 : distribution :=
  Distribution 1 f_one f_one f_one f_zero [0; 1; 0] (BExplicit [f_one; f_two]).
Lemma ex_dist_built log2 : built log2 ex_dist [f_one; f_two].
Proof.
  apply (built_sample _ ex_dist1 [f_one] f_two); [|vm_compute; reflexivity].
  apply (built_sample _ ex_empty [] f_one); [|vm_compute; reflexivity].
  apply (built_explicit _ [f_one; f_two]). vm_compute. reflexivity.
Qed.

(** C23 *)
Theorem C23_bucket_counts_sum : forall log2 d samples, built log2 d samples ->
  Forall (fun c => 0 <= c) (d_buckets d) /\ sum_Z (d_buckets d) = d_count d /\
  d_count d = Z.of_nat (length samples) /\ Z.of_nat (length (d_buckets d)) = layout_buckets (d_option d).
Proof. exact built_inv. Qed.
Print Assumptions C23_bucket_counts_sum.
Example C23_example : exists d samples, built (fun x => x) d samples /\ d_count d = 4.
Proof.
  exists (match Merge ex_dist ex_dist with Ok (_, d) => d | _ => ex_dist end), ([f_one; f_two] ++ [f_one; f_two]).
  split; [|vm_compute; reflexivity]. eapply built_merge; [apply ex_dist_built..|]. vm_compute. reflexivity.
Qed.

(** C24 *)
Theorem C24_explicit_bucket_classifies : forall log2 d samples b v,
  built log2 d samples -> d_count d < int64_max -> d_option d = BExplicit b ->
  b <> [] -> no_nan b -> strictly_increasing b -> is_nan v = false ->
  exists d' i, AddSample log2 v d = Ok (SOk, d') /\ in_explicit_bucket b i v /\
    d_buckets d' = alter (Z.add 1) i (d_buckets d) /\ (i < length (d_buckets d))%nat /\
    forall j, in_explicit_bucket b j v -> j = i.
Proof. exact explicit_classifies. Qed.
Print Assumptions C24_explicit_bucket_classifies.
Example C24_example : built (fun x => x) ex_dist [f_one; f_two] /\ d_count ex_dist < int64_max /\
  no_nan [f_one; f_two] /\ strictly_increasing [f_one; f_two] /\ is_nan f_inf = false.
Proof.
  assert (no_nan [f_one; f_two]) as Hn.
  { intros x [->|[->|[]%elem_of_nil]%elem_of_cons]%elem_of_cons; reflexivity. }
  split_and!; [apply ex_dist_built|reflexivity|done| |done].
  apply (accepted_explicit_increasing _ Hn). split; reflexivity.
Qed.

(** C25 is false of the code, in four ways: an accepted empty bound list, an accepted NaN width, a linear layout with
    finite parameters and a finite sample whose distance from the offset overflows, an infinite sample in an
    exponential layout. *)
Theorem C25_add_sample_no_ub_refuted :
  (exists d, InitExplicit [] empty_distribution = Ok (SOk, d) /\ forall log2 v, AddSample log2 v d = UB IndexOutOfRange) /\
  (exists d, InitLinear 2 S754_nan f_zero empty_distribution = Ok (SOk, d) /\
     forall log2, AddSample log2 f_one d = UB BadFloatToInt) /\
  (exists d, InitLinear 2 f_max (SFopp f_max) empty_distribution = Ok (SOk, d) /\
     forall log2, AddSample log2 f_max d = UB BadFloatToInt) /\
  (exists d, InitExponential 8 f_two f_one empty_distribution = Ok (SOk, d) /\
     forall log2, log2 f_inf = f_inf -> log2 f_two = f_one -> AddSample log2 f_inf d = UB BadFloatToInt).
Proof. exact (conj dist_ub_explicit (conj dist_ub_linear_nan (conj dist_ub_linear dist_ub_exponential))). Qed.
Print Assumptions C25_add_sample_no_ub_refuted.

(** C25 for explicit layouts: every non-empty bound list and every double. *)
Theorem C25_explicit_no_ub_partial : forall log2 d samples b v,
  built log2 d samples -> d_count d < int64_max -> d_option d = BExplicit b -> b <> [] ->
  exists d', AddSample log2 v d = Ok (SOk, d').
Proof. exact explicit_no_ub. Qed.
Print Assumptions C25_explicit_no_ub_partial.

(** C25 for linear layouts whose computed upper bound is finite: every double, including NaN and infinities. *)
Theorem C25_linear_no_ub_partial : forall log2 d samples n w o v,
  built log2 d samples -> d_count d < int64_max -> d_option d = BLinear n w o ->
  is_double w -> is_double o -> is_double v -> finite (linear_upper n w o) ->
  exists d', AddSample log2 v d = Ok (SOk, d').
Proof. exact linear_no_ub'. Qed.
Print Assumptions C25_linear_no_ub_partial.

(** C25 for exponential layouts: defined exactly when the truncated logarithm quotient is in range. *)
Theorem C25_exponential_no_ub_partial : forall log2 d samples n g sc v,
  built log2 d samples -> d_count d < int64_max -> d_option d = BExponential n g sc ->
  ((exists d', AddSample log2 v d = Ok (SOk, d')) <->
   (fle sc v = true -> exists t, f_trunc (fdiv (log2 (fdiv v sc)) (log2 g)) = Some t /\ -1 <= t < int32_max)).
Proof. exact exponential_no_ub. Qed.
Print Assumptions C25_exponential_no_ub_partial.

(** C25 for exponential layouts with ordinary parameters (log2 of the growth factor at least 2^-20). *)
Theorem C25_exponential_ordinary_partial : forall log2 d samples n g sc v,
  sane_log2 log2 -> built log2 d samples -> d_count d < int64_max -> d_option d = BExponential n g sc ->
  is_double sc -> finite sc -> is_double (log2 g) -> finite (log2 g) -> fle f_2m20 (log2 g) = true ->
  is_double v -> (fle sc v = true -> finite (fdiv v sc)) ->
  exists d', AddSample log2 v d = Ok (SOk, d').
Proof. exact exponential_no_ub_ordinary. Qed.
Print Assumptions C25_exponential_ordinary_partial.
Example C25_example : sane_log2 (fun _ => f_one) /\
  (exists d, built (fun _ => f_one) d [] /\ d_option d = BExponential 8 f_two f_one) /\
  (exists d, built (fun _ => f_one) d [] /\ d_option d = BLinear 8 f_two f_one /\ finite (linear_upper 8 f_two f_one)).
Proof.
  split_and!.
  - intros x _ _ _. split_and!; reflexivity.
  - eexists. split; [eapply (built_exponential _ 8 f_two f_one); reflexivity|reflexivity].
  - eexists. split; [eapply (built_linear _ 8 f_two f_one); reflexivity|split; [reflexivity|vm_compute; exact I]].
Qed.

(** C26 *)
Theorem C26_extremes : forall log2 d samples, built log2 d samples -> no_nan samples -> samples <> [] ->
  is_least (d_min d) samples /\ is_greatest (d_max d) samples.
Proof. exact built_extremes. Qed.
Print Assumptions C26_extremes.
Example C26_example : built (fun x => x) ex_dist [f_one; f_two] /\ no_nan [f_one; f_two].
Proof. split; [apply ex_dist_built|]. intros x [->|[->|[]%elem_of_nil]%elem_of_cons]%elem_of_cons; reflexivity. Qed.

(** C27: what Merge does to the target, and that the only undefined behaviour is an overflow of a count. *)
Theorem C27_merge_adds_or_keeps : forall from to st r, Merge from to = Ok (st, r) ->
  (st = SInvalidArgument /\ r = to) \/
  (st = SOk /\ d_count from <= 0 /\ r = to) \/
  (st = SOk /\ 0 < d_count from /\ d_count to <= 0 /\ r = from) \/
  (st = SOk /\ 0 < d_count from /\ 0 < d_count to /\ d_count r = d_count to + d_count from /\
   d_buckets r = zip_with Z.add (d_buckets to) (d_buckets from) /\
   length (d_buckets from) = length (d_buckets to) /\ d_option r = d_option to).
Proof. exact merge_spec. Qed.
Print Assumptions C27_merge_adds_or_keeps.
Theorem C27_only_count_overflow : forall from to, is_ok (Merge from to) = false -> Merge from to = UB SignedOverflow.
Proof. exact merge_ub. Qed.
Print Assumptions C27_only_count_overflow.
(** Exactly the distributions of approximately equal layouts merge. *)
Theorem C27_merges_exactly_similar_layouts : forall from to st r, Merge from to = Ok (st, r) ->
  (st = SOk <-> similar_layout (d_option from) (d_option to) /\ length (d_buckets from) = length (d_buckets to)).
Proof. exact merge_accepts. Qed.
Print Assumptions C27_merges_exactly_similar_layouts.
(** Distributions of one layout (finite parameters) always merge. *)
Theorem C27_same_layout_merges : forall log2 from to lf lt,
  built log2 from lf -> built log2 to lt -> d_option from = d_option to ->
  layout_finite (d_option to) -> d_count from + d_count to <= int64_max ->
  exists r, Merge from to = Ok (SOk, r) /\ d_count r = d_count to + d_count from /\
    d_buckets r = zip_with Z.add (d_buckets to) (d_buckets from).
Proof. exact merge_same_layout. Qed.
Print Assumptions C27_same_layout_merges.
Example C27_example : layout_finite (d_option ex_dist) /\ exists r, Merge ex_dist ex_dist = Ok (SOk, r) /\ d_buckets r = [0; 2; 2].
Proof. split; [repeat constructor|]. eexists. split; vm_compute; reflexivity. Qed.

(** C28, in exact arithmetic: the statistics code instantiated at the rationals. *)
Theorem C28_mean_and_deviation_exact : forall s samples, q_built s samples ->
  s_count s = Z.of_nat (length samples) /\ (s_mean s == q_mean samples)%Q /\ (s_ssd s == q_ssd samples)%Q.
Proof. exact q_exact. Qed.
Print Assumptions C28_mean_and_deviation_exact.
Example C28_example : exists s, q_built s [1%Q; (3#1)%Q; (5#1)%Q] /\ (s_ssd s == 8#1)%Q.
Proof.
  eexists. split.
  - change [1%Q; (3#1)%Q; (5#1)%Q] with (([1%Q] ++ [(3#1)%Q]) ++ [(5#1)%Q]).
    eapply q_built_add; [eapply q_built_add; [eapply (q_built_first _ (Stats 0 0%Q 0%Q 0%Q 0%Q)); reflexivity|]|]; reflexivity.
  - reflexivity.
Qed.

(** C29 is false of the code: empty bounds, NaN parameters and unordered bounds around a NaN are accepted, and the largest
    bucket counts overflow int. *)
Theorem C29_init_rejects_refuted :
  (exists d, InitExplicit [] empty_distribution = Ok (SOk, d)) /\
  (exists d, InitExponential 4 S754_nan f_one empty_distribution = Ok (SOk, d)) /\
  (exists d, InitLinear 4 S754_nan f_one empty_distribution = Ok (SOk, d)) /\
  (exists d, InitExplicit [f_one; S754_nan; f_zero] empty_distribution = Ok (SOk, d)) /\
  InitLinear int32_max f_one f_zero empty_distribution = UB SignedOverflow.
Proof. exact init_refuted. Qed.
Print Assumptions C29_init_rejects_refuted.

(** C29 without NaN (and, for explicit bounds, including the empty list among the accepted ones). *)
Theorem C29_init_explicit_partial : forall b d, no_nan b ->
  (exists d', InitExplicit b d = Ok (SOk, d') /\ strictly_increasing b) \/
  (InitExplicit b d = Ok (SInvalidArgument, d) /\ ~ strictly_increasing b).
Proof. exact init_explicit_partial. Qed.
Print Assumptions C29_init_explicit_partial.
Theorem C29_init_exponential_partial : forall n g s d, n + 2 <= int32_max -> is_nan g = false -> is_nan s = false ->
  (exists d', InitExponential n g s d = Ok (SOk, d') /\ 1 <= n /\ flt f_one g = true /\ flt f_zero s = true) \/
  (InitExponential n g s d = Ok (SInvalidArgument, d) /\ ~ (1 <= n /\ flt f_one g = true /\ flt f_zero s = true)).
Proof. exact init_exponential_partial. Qed.
Print Assumptions C29_init_exponential_partial.
Theorem C29_init_linear_partial : forall n w o d, n + 2 <= int32_max -> is_nan w = false ->
  (exists d', InitLinear n w o d = Ok (SOk, d') /\ 1 <= n /\ flt f_zero w = true) \/
  (InitLinear n w o d = Ok (SInvalidArgument, d) /\ ~ (1 <= n /\ flt f_zero w = true)).
Proof. exact init_linear_partial. Qed.
Print Assumptions C29_init_linear_partial.
Example C29_example : flt f_one f_two = true /\ flt f_zero f_one = true /\ ~ strictly_increasing [f_two; f_one].
Proof. split_and!; [reflexivity..|]. intros H. specialize (H 0%nat 1%nat _ _ ltac:(lia) eq_refl eq_refl). discriminate. Qed.
