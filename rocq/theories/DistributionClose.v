(** What it means over the reals that two parameters are close. *)
From Coq Require Import Reals Lra.
From Flocq Require Import Core.Core IEEE754.BinarySingleNaN.
From Verif Require Import Proto Distribution DistributionSpec DistributionRSpec DistributionProofs Float64Proofs DistributionLinear
  DistributionMean.
Open Scope Z_scope.

Lemma fabs_spec x : valid x -> fin x = true -> valid (SFabs x) /\ fin (SFabs x) = true /\ FR (SFabs x) = Rabs (FR x).
Proof.
  intros V F. destruct x as [s|s| |s m e]; try discriminate; (split; [done|]; split; [done|]); unfold FR; cbn [SFabs SF2R].
  - by rewrite Rabs_R0.
  - rewrite <- F2R_Zabs. by destruct s.
Qed.
Definition tol : double := S754_finite false 5902958103587057 (-69).
Lemma tol_spec : valid tol /\ fin tol = true /\ (0 < FR tol)%R /\ (999999 / 100000000000 <= FR tol - FR tol * / 1000000000)%R /\
  (FR tol + FR tol * / 1000000000 <= 1000001 / 100000000000)%R.
Proof.
  split; [done|]. split; [done|].
  assert (FR tol = 5902958103587057 / 590295810358705651712)%R as ->.
  { unfold FR, tol, SF2R, F2R. cbn [cond_Zopp Fnum Fexp bpow]. change (Z.pow_pos radix2 69) with 590295810358705651712. done. }
  repeat split; lra.
Qed.

Lemma big_900 : (0 < bpow radix2 900)%R /\ (2 * bpow radix2 900 <= bpow radix2 1000)%R.
Proof.
  split; [apply bpow_gt_0|]. change 2%R with (bpow radix2 1). rewrite <- bpow_plus. apply bpow_le. lia.
Qed.
Lemma close_R x y : valid x -> valid y -> fin x = true -> fin y = true -> (Rabs (FR x) <= bpow radix2 900)%R -> (Rabs (FR y) <= bpow radix2 900)%R ->
  close x y <-> (Rabs (rnd (FR x - FR y)) <= rnd (FR tol * Rabs (FR x)))%R.
Proof.
  intros Vx Vy Fx Fy Bx By. destruct tol_spec as (Vt & Ft & Pt & Lt & Ut).
  destruct (fsub_small x y) as [Fd Ed]; [done..| |].
  { apply rnd_bounded. unfold Rminus. eapply Rle_trans; [apply Rabs_triang|]. rewrite Rabs_Ropp. pose proof big_900. lra. }
  pose proof (fsub_valid x y Vx Vy) as Vd.
  destruct (fabs_spec x Vx Fx) as (Va & Fa & Ea). destruct (fabs_spec _ Vd Fd) as (Vb & Fb & Eb).
  destruct (fmul_small tol (SFabs x)) as [Fm Em]; [done..| |].
  { rewrite Ea. apply rnd_bounded. rewrite Rabs_mult, Rabs_Rabsolu, (Rabs_pos_eq (FR tol)) by lra. pose proof (Rabs_pos (FR x)). pose proof big_900.
    apply Rle_trans with (1 * bpow radix2 900)%R; [apply Rmult_le_compat; lra|lra]. }
  unfold close. fold tol. rewrite fle_R; [|done|by apply fmul_valid|done|done]. rewrite Eb, Ed, Em, Ea.
  split; [|apply Rle_bool_true]. intros H. by destruct (Rle_bool_spec (Rabs (rnd (FR x - FR y))) (rnd (FR tol * Rabs (FR x)))).
Qed.

Lemma close_near x y : valid x -> valid y -> fin x = true -> fin y = true -> (bpow radix2 (-900) <= Rabs (FR x) <= bpow radix2 900)%R -> (Rabs (FR y) <= bpow radix2 900)%R ->
  (close x y -> Rabs (FR x - FR y) <= 1000002 / 100000000000 * Rabs (FR x))%R /\
  ((Rabs (FR x - FR y) <= 999998 / 100000000000 * Rabs (FR x))%R -> close x y).
Proof.
  intros Vx Vy Fx Fy [Lx Bx] By. destruct tol_spec as (Vt & Ft & Pt & Lt & Ut). rewrite close_R by done.
  pose proof (rel_sub x y Vx Vy) as R1. pose proof (rel_abs (FR tol * Rabs (FR x))) as R2.
  set (a := Rabs (FR x)) in *. set (d := (FR x - FR y)%R) in *.
  assert (0 < a)%R as Ha by (pose proof (bpow_gt_0 radix2 (-900)); lra).
  assert (0 < FR tol * a)%R as Hta by nra. rewrite (Rabs_pos_eq (FR tol * a)) in R2 by lra. apply Rabs_le_inv in R2.
  assert (bpow radix2 (-53) <= / 10000000000)%R as He.
  { change (bpow radix2 (-53)) with (/ 9007199254740992)%R. lra. }
  assert (0 < bpow radix2 (-53))%R as He0 by apply bpow_gt_0.
  assert (bpow radix2 (-1075) <= / 1000000000000000 * a)%R as Ht.
  { apply Rle_trans with (bpow radix2 (-100) * bpow radix2 (-900))%R; [rewrite <- bpow_plus; apply bpow_le; lia|].
    apply Rmult_le_compat; try apply bpow_ge_0; [|done]. apply Rle_trans with (bpow radix2 (-53)); [apply bpow_le; lia|].
    change (bpow radix2 (-53)) with (/ 9007199254740992)%R. lra. }
  pose proof (bpow_gt_0 radix2 (-1075)) as Ht0.
  assert (0 <= FR tol * a * bpow radix2 (-53) <= FR tol * a * / 10000000000)%R as Hr by (split; [nra|apply Rmult_le_compat_l; lra]).
  assert ((FR tol + FR tol * / 1000000000) * a <= 1000001 / 100000000000 * a)%R as U by (apply Rmult_le_compat_r; lra).
  assert (999999 / 100000000000 * a <= (FR tol - FR tol * / 1000000000) * a)%R as L by (apply Rmult_le_compat_r; lra).
  pose proof (Rabs_pos d) as Hd.
  assert (0 <= Rabs d * bpow radix2 (-53) <= Rabs d * / 10000000000)%R as Hde by (split; [nra|apply Rmult_le_compat_l; lra]).
  assert (Rabs d - Rabs d * / 10000000000 <= Rabs (rnd d) <= Rabs d + Rabs d * / 10000000000)%R as Hrd.
  { pose proof (Rabs_triang_inv (rnd d) d). pose proof (Rabs_triang_inv d (rnd d)) as H1. rewrite Rabs_minus_sym in H1. lra. }
  split; intros H; lra.
Qed.
Lemma close_zero x y : valid x -> valid y -> fin x = true -> fin y = true -> FR x = 0%R -> (Rabs (FR y) <= bpow radix2 900)%R ->
  close x y <-> FR y = 0%R.
Proof.
  intros Vx Vy Fx Fy E By. pose proof big_900. rewrite close_R by (done || (rewrite E, Rabs_R0; lra)).
  rewrite E, Rabs_R0, Rmult_0_r, Rminus_0_l. change (rnd 0) with (rnd 0%R).
  rewrite (rnd_id 0%R) by apply generic_format_0. rewrite rnd_id by (by apply generic_format_opp, FR_format). rewrite Rabs_Ropp.
  split; [|intros ->; rewrite Rabs_R0; lra]. intros H1. destruct (Req_dec (FR y) 0) as [|N]; [done|]. apply Rabs_pos_lt in N. lra.
Qed.

(** In the vocabulary of the specification. *)
Lemma tolerance x y : is_double x -> is_double y -> finite x -> finite y ->
  (powerRZ 2 (-900) <= Rabs (real x) <= powerRZ 2 900)%R -> (Rabs (real y) <= powerRZ 2 900)%R ->
  (close x y -> Rabs (real x - real y) <= 1000002 / 100000000000 * Rabs (real x))%R /\
  ((Rabs (real x - real y) <= 999998 / 100000000000 * Rabs (real x))%R -> close x y).
Proof.
  intros Vx Vy Fx Fy. rewrite !real_FR. change 2%R with (IZR radix2). rewrite <- !bpow_powerRZ. intros. apply close_near; try done; by apply fin_finite.
Qed.
Lemma tolerance_zero x y : is_double x -> is_double y -> finite x -> finite y ->
  real x = 0%R -> (Rabs (real y) <= powerRZ 2 900)%R -> close x y <-> real y = 0%R.
Proof.
  intros Vx Vy Fx Fy. rewrite !real_FR. change 2%R with (IZR radix2). rewrite <- !bpow_powerRZ. intros. apply close_zero; try done; by apply fin_finite.
Qed.
