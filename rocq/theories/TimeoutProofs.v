(** Proofs about the timeout conversion. *)
From Coq Require Import Reals Lra.
From Flocq Require Import Core.Core IEEE754.BinarySingleNaN.
From Flocq Require Import Relative.
From Verif Require Import Proto Distribution DistributionSpec DistributionProofs Float64Proofs Timeout.
Open Scope Z_scope.

#[local] Existing Instance Hprec.
#[local] Existing Instance Hmax.
#[local] Existing Instance fx_valid.
#[local] Existing Instance rnd_valid.

Lemma fmul_small x y : valid x -> valid y -> fin x = true -> fin y = true ->
  (Rabs (rnd (FR x * FR y)) < bpow radix2 1024)%R ->
  fin (fmul x y) = true /\ FR (fmul x y) = rnd (FR x * FR y)%R.
Proof.
  intros (a & <-)%to_bin (b & <-)%to_bin. rewrite fmul_B, !fin_B, !FR_B. intros Fa Fb H.
  pose proof (Bmult_correct 53 1024 _ _ mode_NE a b) as C.
  rewrite Rlt_bool_true in C by done. destruct C as (C1 & C2 & _). split; [|exact C1]. rewrite C2, Fa, Fb. reflexivity.
Qed.
Lemma positive_sign (a : bin) : (0 < B2R a)%R -> Bsign a = false.
Proof.
  destruct a as [s|s| |s m e H]; intros Ha; cbn [B2R] in Ha; try (exfalso; lra). destruct s; [|done]. exfalso.
  pose proof (F2R_lt_0 radix2 (Float radix2 (Z.neg m) e)) as X. cbn [Fnum] in X. specialize (X ltac:(lia)).
  change (cond_Zopp true (Z.pos m)) with (Z.neg m) in Ha. lra.
Qed.
(** A product of finite numbers that is not finite is infinite. *)
Lemma fmul_inf x y : valid x -> valid y -> fin x = true -> fin y = true -> (0 <= FR x)%R -> (0 < FR y)%R -> fin (fmul x y) = false ->
  fmul x y = S754_infinity false.
Proof.
  intros (a & <-)%to_bin (b & <-)%to_bin. rewrite fmul_B, !fin_B, !FR_B. intros Fa Fb Pa Pb H.
  pose proof (Bmult_correct 53 1024 _ _ mode_NE a b) as C.
  destruct (Rlt_bool _ _) eqn:E; [destruct C as (_ & C & _); rewrite H, Fa, Fb in C; discriminate|].
  rewrite C. unfold binary_overflow. cbn.
  assert (Ha : (0 < B2R a)%R).
  { destruct Pa as [Pa|Pa]; [done|]. exfalso. rewrite <- Pa, Rmult_0_l, round_0 in E by typeclasses eauto.
    rewrite Rabs_R0, Rlt_bool_true in E; [done|]. apply bpow_gt_0. }
  rewrite (positive_sign a), (positive_sign b) by done.
  done.
Qed.

Lemma lt_1024 x n : Z.abs n < 2 ^ 53 -> (Rabs x <= IZR n)%R -> (Rabs x < bpow radix2 1024)%R.
Proof.
  intros Hn H. eapply Rle_lt_trans; [exact H|]. apply Rlt_le_trans with (IZR (2 ^ 53)); [apply IZR_lt; lia|].
  rewrite (IZR_Zpower radix2) by lia. apply bpow_le. lia.
Qed.
Lemma rnd_between x a b : Z.abs a < 2 ^ 53 -> Z.abs b < 2 ^ 53 -> (IZR a <= x <= IZR b)%R -> (IZR a <= rnd x <= IZR b)%R.
Proof.
  intros Ha Hb [H1 H2]. rewrite <- (rnd_id (IZR a)), <- (rnd_id (IZR b)) by (by apply format_int). split; by apply rnd_le.
Qed.

Lemma seconds_spec m : Z.abs m <= 2 ^ 31 -> valid (seconds_of_ms m) /\ fin (seconds_of_ms m) = true /\ FR (seconds_of_ms m) = rnd (IZR m / 1000).
Proof.
  intros Hm. destruct (f_of_int_spec m) as (V1 & F1 & E1); [lia|]. destruct (f_of_int_spec 1000) as (V2 & F2 & E2); [lia|].
  split; [by apply fdiv_valid|].
  destruct (fdiv_small (f_of_int m) (f_of_int 1000)) as [F E]; try done.
  - rewrite E2. lra.
  - rewrite E1, E2. apply (lt_1024 _ (Z.abs m)); [lia|]. rewrite abs_IZR. apply Rabs_le.
    pose proof (rnd_between (IZR m / 1000) (- Z.abs m) (Z.abs m) ltac:(lia) ltac:(lia)) as B.
    rewrite opp_IZR, abs_IZR in B. apply B. destruct (Rle_dec 0 (IZR m)).
    + rewrite Rabs_pos_eq by done. lra.
    + rewrite Rabs_left by lra. lra.
  - rewrite E1, E2 in E. done.
Qed.

Lemma seconds_negative m : -2 ^ 31 <= m -> m < 0 -> cycles_of_ms m = Ok None.
Proof.
  intros H1 H2. destruct (seconds_spec m ltac:(lia)) as (V & F & E). unfold cycles_of_ms, cycles_of_seconds.
  assert (flt (seconds_of_ms m) f_zero = true) as ->; [|done].
  rewrite flt_R; [|done|done|done|done]. rewrite E. apply Rlt_bool_true. unfold FR, f_zero. cbn [SF2R].
  apply Rle_lt_trans with (rnd (- bpow radix2 (-10))).
  - apply rnd_le. assert (IZR m <= -1)%R by (apply IZR_le; lia).
    change (bpow radix2 (-10)) with (/ 1024)%R. lra.
  - rewrite rnd_id.
    + pose proof (bpow_gt_0 radix2 (-10)). lra.
    + apply generic_format_opp, generic_format_bpow. vm_compute. discriminate.
Qed.

Lemma seconds_error m : 0 <= m <= 2 ^ 31 -> exists d, (rnd (IZR m / 1000) = IZR m / 1000 * (1 + d) /\ Rabs d <= bpow radix2 (-53))%R.
Proof.
  intros H. destruct (Z.eq_dec m 0) as [->|Hn].
  - exists 0%R. unfold Rdiv. rewrite !Rmult_0_l, round_0 by typeclasses eauto. split; [done|]. rewrite Rabs_R0. apply bpow_ge_0.
  - destruct (relative_error_N_FLT_ex radix2 (-1074) 53 ltac:(lia) (fun x => negb (Z.even x)) (IZR m / 1000)) as (d & D1 & D2).
    + apply Rle_trans with (bpow radix2 (-10)); [apply bpow_le; lia|]. assert (1 <= IZR m)%R by (apply IZR_le; lia).
      rewrite Rabs_pos_eq by lra. change (bpow radix2 (-10)) with (/ 1024)%R. lra.
    + exists d. split; [exact D2|]. eapply Rle_trans; [exact D1|].
      rewrite bpow_plus. change (- (53)) with (-53). change (bpow radix2 1) with 2%R. lra.
Qed.

Lemma timeout_accurate m : 0 <= m <= int32_max -> exists n, cycles_of_ms m = Ok (Some n) /\ 1000 * m - 1 <= n <= 1000 * m /\ 0 <= n.
Proof.
  unfold int32_max. intros Hm. destruct (seconds_spec m ltac:(lia)) as (V & F & E). destruct (seconds_error m ltac:(lia)) as (d & D1 & D2).
  destruct (f_of_int_spec Frequency) as (V2 & F2 & E2); [done|].
  assert (Hm' : (0 <= IZR m <= 2147483647)%R) by (split; apply IZR_le; lia).
  assert (Hb : (Rabs d <= / 9007199254740992)%R). { change (/ 9007199254740992)%R with (bpow radix2 (-53)). done. }
  apply Rabs_le_inv in Hb.
  assert (Hs : (0 <= FR (seconds_of_ms m))%R).
  { rewrite E. rewrite <- (rnd_id 0); [|apply generic_format_0]. apply rnd_le. lra. }
  assert (Hx : (Rabs (FR (seconds_of_ms m) * FR (f_of_int Frequency) - IZR (1000 * m)) <= / 2)%R).
  { rewrite E, D1, E2. unfold Frequency. rewrite mult_IZR.
    replace (IZR m / 1000 * (1 + d) * 1000000 - 1000 * IZR m)%R with (1000 * IZR m * d)%R by field.
    rewrite Rabs_mult, (Rabs_pos_eq (1000 * IZR m)) by lra.
    apply Rle_trans with (1000 * 2147483647 * / 9007199254740992)%R; [|lra].
    apply Rmult_le_compat; [lra|apply Rabs_pos|lra|]. apply Rabs_le. lra. }
  apply Rabs_le_inv in Hx.
  assert (Hr : (IZR (1000 * m) - / 2 <= rnd (FR (seconds_of_ms m) * FR (f_of_int Frequency)) <= IZR (1000 * m) + / 2)%R).
  { split.
    - rewrite <- (rnd_id (IZR (1000 * m) - / 2)); [apply rnd_le; lra|].
      replace (IZR (1000 * m) - / 2)%R with (IZR (1000 * m - 1) + / 2)%R by (rewrite minus_IZR; lra). apply format_half. lia.
    - rewrite <- (rnd_id (IZR (1000 * m) + / 2)); [apply rnd_le; lra|]. apply format_half. lia. }
  assert (H0 : (0 <= rnd (FR (seconds_of_ms m) * FR (f_of_int Frequency)))%R).
  { rewrite <- (rnd_id 0) at 1; [|apply generic_format_0]. apply rnd_le. apply Rmult_le_pos; [done|]. rewrite E2. unfold Frequency. lra. }
  destruct (fmul_small (seconds_of_ms m) (f_of_int Frequency)) as [F3 E3]; try done.
  { apply (lt_1024 _ (1000 * m + 1)); [lia|]. rewrite Rabs_pos_eq by done. rewrite plus_IZR. lra. }
  pose proof (fmul_valid _ _ V V2) as V3.
  unfold cycles_of_ms, cycles_of_seconds.
  assert (flt (seconds_of_ms m) f_zero = false) as ->. { rewrite flt_R; [|done|done|done|done]. apply Rlt_bool_false. exact Hs. }
  assert (f_isinf (seconds_of_ms m) = false) as ->. { destruct (seconds_of_ms m); done. }
  cbn [orb].
  assert (fle (f_of_int int64_max) (fmul (seconds_of_ms m) (f_of_int Frequency)) = false) as ->.
  { rewrite fle_R; [|vm_compute; done|done|vm_compute; done|done]. apply Rle_bool_false. rewrite E3.
    apply Rle_lt_trans with (IZR (1000 * m) + / 2)%R; [lra|].
    assert (FR (f_of_int int64_max) = bpow radix2 63) as ->.
    { assert (f_of_int int64_max = S754_finite false 4503599627370496 11) as -> by (vm_compute; done). unfold FR. cbn [SF2R cond_Zopp].
      unfold F2R. cbn [Fnum Fexp]. change (IZR 4503599627370496) with (bpow radix2 52). rewrite <- bpow_plus. done. }
    apply Rlt_le_trans with (IZR (2 ^ 53)).
    - apply Rlt_le_trans with (IZR (1000 * m + 1)); [rewrite plus_IZR; lra|apply IZR_le; lia].
    - rewrite (IZR_Zpower radix2) by lia. apply bpow_le. lia. }
  unfold f_to_int64. rewrite f_trunc_spec by done. rewrite E3. set (r := rnd (FR (seconds_of_ms m) * FR (f_of_int Frequency))) in *.
  rewrite Ztrunc_floor by done.
  assert (1000 * m - 1 <= Zfloor r) by (apply Zfloor_lub; rewrite minus_IZR; lra).
  assert (Zfloor r <= 1000 * m).
  { apply le_IZR. apply Rnot_lt_le. intros Hc. apply lt_IZR in Hc. assert (X : 1000 * m + 1 <= Zfloor r) by lia. apply IZR_le in X.
    pose proof (Zfloor_lb r). rewrite plus_IZR in X. lra. }
  assert (0 <= Zfloor r) by (by apply Zfloor_lub).
  assert (in_int64 (Zfloor r) = true) as -> by (unfold in_int64, int64_min, int64_max; apply andb_true_intro; split; apply Z.leb_le; lia).
  eexists. split; [reflexivity|]. lia.
Qed.

(** Every double except NaN converts without undefined behaviour. *)
Lemma timeout_defined s : valid s -> is_nan s = false -> exists r, cycles_of_seconds s = Ok r /\
  match r with None => flt s f_zero = true \/ f_isinf s = true | Some n => 0 <= n <= int64_max end.
Proof.
  intros V Hn. unfold cycles_of_seconds. destruct (flt s f_zero) eqn:El; [eexists; split; [done|]; by left|].
  destruct (f_isinf s) eqn:Ei; [eexists; split; [done|]; by right|]. cbn [orb].
  assert (F : fin s = true) by (destruct s; done).
  destruct (f_of_int_spec Frequency) as (V2 & F2 & E2); [done|].
  assert (Hs : (0 <= FR s)%R).
  { rewrite flt_R in El by done. apply Rnot_lt_le. intros Hc. rewrite Rlt_bool_true in El; done. }
  pose proof (fmul_valid _ _ V V2) as V3.
  destruct (fle (f_of_int int64_max) (fmul s (f_of_int Frequency))) eqn:Ef; [eexists; split; [done|]; unfold int64_max; lia|].
  destruct (fin (fmul s (f_of_int Frequency))) eqn:F3.
  - rewrite fle_R in Ef; [|vm_compute; done|done|vm_compute; done|done].
    assert (FR (f_of_int int64_max) = IZR (2 ^ 63)) as X.
    { assert (f_of_int int64_max = S754_finite false 4503599627370496 11) as -> by (vm_compute; done). unfold FR. cbn [SF2R cond_Zopp].
      unfold F2R. cbn [Fnum Fexp]. change (IZR 4503599627370496) with (bpow radix2 52). rewrite <- bpow_plus. rewrite (IZR_Zpower radix2) by lia. done. }
    assert (Hlt : (FR (fmul s (f_of_int Frequency)) < IZR (2 ^ 63))%R).
    { rewrite <- X. apply Rnot_le_lt. intros Hc. rewrite Rle_bool_true in Ef; done. }
    assert (Hge : (0 <= FR (fmul s (f_of_int Frequency)))%R).
    { destruct (Req_dec (FR s) 0) as [Z0|Z0].
      - destruct (fmul_small s (f_of_int Frequency)) as [_ ->]; try done.
        + rewrite Z0, Rmult_0_l, round_0 by typeclasses eauto. rewrite Rabs_R0. apply bpow_gt_0.
        + rewrite Z0, Rmult_0_l, round_0 by typeclasses eauto. lra.
      - destruct (fmul_fin s (f_of_int Frequency) V V2 F Z0 F3) as [_ ->]. rewrite <- (rnd_id 0) at 1; [|apply generic_format_0].
        apply rnd_le. apply Rmult_le_pos; [done|]. rewrite E2. unfold Frequency. lra. }
    unfold f_to_int64. rewrite f_trunc_spec by done. rewrite Ztrunc_floor by done.
    assert (0 <= Zfloor (FR (fmul s (f_of_int Frequency)))) by (by apply Zfloor_lub).
    assert (Zfloor (FR (fmul s (f_of_int Frequency))) < 2 ^ 63).
    { apply lt_IZR. eapply Rle_lt_trans; [apply Zfloor_lb|]. done. }
    assert (in_int64 (Zfloor (FR (fmul s (f_of_int Frequency)))) = true) as -> by (unfold in_int64, int64_min, int64_max; apply andb_true_intro; split; apply Z.leb_le; lia).
    eexists. split; [reflexivity|]. unfold int64_max. lia.
  - rewrite (fmul_inf s (f_of_int Frequency)) in Ef; try done; rewrite E2; unfold Frequency; lra.
Qed.
Lemma timeout_nan : cycles_of_seconds S754_nan = UB BadFloatToInt.
Proof. vm_compute. done. Qed.
