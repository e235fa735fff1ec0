(** Which bucket of an exponential layout a sample lands in. *)
From Coq Require Import Reals Lra.
From Flocq Require Import Core.Core IEEE754.BinarySingleNaN.
From Verif Require Import Proto Distribution DistributionSpec DistributionRSpec DistributionProofs Float64Proofs DistributionLinear.
Open Scope Z_scope.

#[local] Instance Hprec : Prec_gt_0 53. Proof. done. Qed.
#[local] Instance fx_valid : Valid_exp fx.
Proof. apply (fexp_correct 53 1024). done. Qed.
#[local] Instance rnd_valid : Valid_rnd (round_mode mode_NE).
Proof. apply valid_rnd_round_mode. Qed.

(** ** Logarithms *)
Lemma ln2_bounds : (/ 2 < ln 2 < 1)%R.
Proof.
  split; [apply ln_lt_2|]. rewrite <- (ln_exp 1). apply ln_increasing; [lra|].
  pose proof (exp_ineq1 1 ltac:(lra)). lra.
Qed.
Lemma ln_le_minus x : (0 < x)%R -> (ln x <= x - 1)%R.
Proof. intros H. pose proof (exp_ineq1_le (ln x)) as E. rewrite exp_ln in E by done. lra. Qed.
Lemma ln_ge_inv x : (0 < x)%R -> (1 - / x <= ln x)%R.
Proof. intros H. pose proof (ln_le_minus (/ x) ltac:(by apply Rinv_0_lt_compat)) as E. rewrite ln_Rinv in E by done. lra. Qed.
Lemma lg_pos x : (1 <= x)%R -> (0 <= lg x)%R.
Proof.
  intros H. pose proof ln2_bounds. unfold lg. apply Rmult_le_pos; [|left; apply Rinv_0_lt_compat; lra].
  destruct H as [H| <-]; [|rewrite ln_1; lra]. left. rewrite <- ln_1. apply ln_increasing; lra.
Qed.
Lemma lg_ln x : ln x = (lg x * ln 2)%R.
Proof. pose proof ln2_bounds. unfold lg. field. lra. Qed.
Lemma lg_bpow e : lg (bpow radix2 e) = IZR e.
Proof.
  pose proof ln2_bounds. unfold lg. rewrite bpow_powerRZ. change (IZR radix2) with 2%R.
  rewrite powerRZ_Rpower by lra. unfold Rpower. rewrite ln_exp. field. lra.
Qed.
Lemma lg_le x y : (0 < x)%R -> (x <= y)%R -> (lg x <= lg y)%R.
Proof.
  intros Hx [H| ->]; [|lra]. pose proof ln2_bounds. unfold lg. apply Rmult_le_compat_r; [left; apply Rinv_0_lt_compat; lra|].
  left. by apply ln_increasing.
Qed.
Lemma ln_powerRZ x k : (0 < x)%R -> ln (powerRZ x k) = (IZR k * ln x)%R.
Proof. intros H. rewrite powerRZ_Rpower by done. unfold Rpower. apply ln_exp. Qed.

(** Relative error of a normal number, and what it does to the logarithm. *)
Lemma rel_normal x : (1 <= x)%R -> (Rabs (rnd x - x) <= x * bpow radix2 (-53))%R.
Proof.
  intros H. assert (bpow radix2 (-1022) <= 1)%R. { change 1%R with (bpow radix2 0). apply bpow_le. lia. }
  pose proof (half_ulp x) as U. pose proof (ulp_big x) as B. rewrite (Rabs_pos_eq x) in B by lra. specialize (B ltac:(lra)).
  change (bpow radix2 (-53)) with (bpow radix2 (-1 + -52)). rewrite bpow_plus. change (bpow radix2 (-1)) with (/ 2)%R. lra.
Qed.
Lemma ln_rnd x : (1 <= x)%R -> (Rabs (ln (rnd x) - ln x) <= bpow radix2 (-52))%R.
Proof.
  intros H. pose proof (rel_normal x H) as E. apply Rabs_le_inv in E as [E1 E2].
  assert (bpow radix2 (-52) = 2 * bpow radix2 (-53))%R as P.
  { change (bpow radix2 (-52)) with (bpow radix2 (1 + -53)). by rewrite bpow_plus. }
  assert (bpow radix2 (-53) <= / 2)%R as P2. { change (/ 2)%R with (bpow radix2 (-1)). apply bpow_le. lia. }
  pose proof (bpow_gt_0 radix2 (-53)) as P3. set (u := bpow radix2 (-53)) in *.
  assert (x * u <= x * / 2)%R by (apply Rmult_le_compat_l; lra).
  assert (0 < rnd x)%R as R0 by lra. assert (0 < rnd x / x)%R as Q0 by (apply Rdiv_lt_0_compat; lra).
  assert (ln (rnd x) - ln x = ln (rnd x / x))%R as ->.
  { unfold Rdiv. rewrite ln_mult, ln_Rinv by (try apply Rinv_0_lt_compat; lra). lra. }
  rewrite P. apply Rabs_le. split.
  - pose proof (ln_ge_inv _ Q0) as L. replace (/ (rnd x / x))%R with (x / rnd x)%R in L by (field; lra).
    assert (x / rnd x <= 1 + 2 * u)%R; [|lra].
    apply Rmult_le_reg_r with (rnd x); [done|]. unfold Rdiv. rewrite Rmult_assoc, Rinv_l, Rmult_1_r by lra. nra.
  - pose proof (ln_le_minus _ Q0) as L. assert (rnd x / x <= 1 + u)%R; [|lra].
    apply Rmult_le_reg_r with x; [lra|]. unfold Rdiv. rewrite Rmult_assoc, Rinv_l, Rmult_1_r by lra. lra.
Qed.

(** ** The computation of the index, read over the reals *)
Record exp_setup (log2 : double -> double) (n : Z) (g s : double) : Prop := {
  es_log : accurate_log2 log2;
  es_n : 1 <= n /\ n + 2 <= int32_max;
  es_s : valid s /\ fin s = true /\ (0 < FR s)%R;
  es_g : valid g /\ fin g = true /\ (1 + / 2 ^ 19 <= FR g)%R }.

Lemma acc log2 x : accurate_log2 log2 -> valid x -> fin x = true -> (1 <= FR x)%R ->
  valid (log2 x) /\ fin (log2 x) = true /\ (Rabs (FR (log2 x) - lg (FR x)) <= lg (FR x) * bpow radix2 (-52))%R /\
  (0 <= lg (FR x) <= 1024)%R.
Proof.
  intros H V F H1. destruct (H x V ltac:(by apply fin_finite)) as (V' & F' & E); [by rewrite real_FR|].
  apply fin_finite in F'. rewrite !real_FR in E. pose proof (lg_pos _ H1) as L0. rewrite (Rabs_pos_eq (lg _)) in E by done.
  split_and!; try done.
  - unfold Rdiv in E. rewrite pow_bpow in E. exact E.
  - rewrite <- (lg_bpow 1024). apply lg_le; [lra|]. destruct (to_bin x V) as [b <-]. rewrite FR_B.
    pose proof (abs_B2R_lt_emax 53 1024 b). pose proof (Rle_abs (B2R b)). lra.
Qed.

(** the logarithm of the growth factor *)
Lemma lg_growth log2 n g s : exp_setup log2 n g s ->
  valid (log2 g) /\ fin (log2 g) = true /\ (bpow radix2 (-20) <= lg (FR g) <= 1024)%R /\
  (3 * bpow radix2 (-22) <= FR (log2 g) <= 1025)%R /\
  (Rabs (FR (log2 g) - lg (FR g)) <= lg (FR g) * bpow radix2 (-52))%R.
Proof.
  intros [Hl _ _ (Vg & Fg & Hg)]. pose proof ln2_bounds as Hln.
  assert (/ 2 ^ 19 = bpow radix2 (-19))%R as P19 by apply pow_bpow. rewrite P19 in Hg.
  pose proof (bpow_gt_0 radix2 (-19)) as P0.
  destruct (acc log2 g Hl Vg Fg) as (V & F & E & L0 & L1); [lra|].
  assert (bpow radix2 (-20) <= lg (FR g))%R as L2.
  { apply Rle_trans with (ln (FR g)).
    - eapply Rle_trans; [|apply ln_ge_inv; lra].
      assert (/ FR g <= 1 - bpow radix2 (-20))%R; [|lra].
      apply Rmult_le_reg_l with (FR g); [lra|]. rewrite Rinv_r by lra.
      assert (bpow radix2 (-19) = 2 * bpow radix2 (-20))%R as P.
      { change (bpow radix2 (-19)) with (bpow radix2 (1 + -20)). by rewrite bpow_plus. }
      assert (bpow radix2 (-20) <= / 4)%R as P4. { change (/ 4)%R with (bpow radix2 (-2)). apply bpow_le. lia. }
      set (b := bpow radix2 (-20)) in *.
      apply Rle_trans with ((1 + 2 * b) * (1 - b))%R; [nra|]. apply Rmult_le_compat_r; lra.
    - rewrite lg_ln. rewrite <- (Rmult_1_r (lg (FR g))) at 2. apply Rmult_le_compat_l; lra. }
  split_and!; try done; apply Rabs_le_inv in E as [E1 E2].
  - assert (bpow radix2 (-52) <= / 4)%R. { change (/ 4)%R with (bpow radix2 (-2)). apply bpow_le. lia. }
    assert (lg (FR g) * bpow radix2 (-52) <= lg (FR g) * / 4)%R by (apply Rmult_le_compat_l; lra).
    change (bpow radix2 (-22)) with (bpow radix2 (-2 + -20)). rewrite bpow_plus. change (bpow radix2 (-2)) with (/ 4)%R. lra.
  - assert (bpow radix2 (-52) <= / 1024)%R. { change (/ 1024)%R with (bpow radix2 (-10)). apply bpow_le. lia. }
    assert (lg (FR g) * bpow radix2 (-52) <= 1024 * / 1024)%R; [|lra]. apply Rmult_le_compat; try lra. apply bpow_ge_0.
Qed.

(** a sample from the scale up, whose distance from it is not extreme *)
Lemma exp_quotient s v : valid s -> fin s = true -> (0 < FR s)%R -> valid v -> fin v = true -> fle s v = true ->
  (FR v <= FR s * bpow radix2 1023)%R ->
  let x := (FR v / FR s)%R in
  (1 <= x)%R /\ valid (fdiv v s) /\ fin (fdiv v s) = true /\ FR (fdiv v s) = rnd x /\ (1 <= rnd x)%R.
Proof.
  intros Vs Fs Hs Vv Fv Hle Hb. cbn zeta. rewrite fle_R in Hle by done. revert Hle. case Rle_bool_spec; [|discriminate]. intros Hle _.
  assert (1 <= FR v / FR s)%R as X1.
  { apply Rmult_le_reg_r with (FR s); [done|]. unfold Rdiv. rewrite Rmult_assoc, Rinv_l, Rmult_1_r by lra. lra. }
  assert (FR v / FR s <= bpow radix2 1023)%R as X2.
  { apply Rmult_le_reg_r with (FR s); [done|]. unfold Rdiv. rewrite Rmult_assoc, Rinv_l, Rmult_1_r by lra. lra. }
  assert (1 <= rnd (FR v / FR s))%R as R1.
  { rewrite <- (rnd_id 1%R) by (change 1%R with (IZR 1); by apply format_int). by apply rnd_le. }
  assert (rnd (FR v / FR s) <= bpow radix2 1023)%R as R2.
  { rewrite <- (rnd_id (bpow radix2 1023)). { by apply rnd_le. }
    apply generic_format_bpow. unfold SpecFloat.fexp, SpecFloat.emin. lia. }
  destruct (fdiv_small v s) as [F E]; try done; [lra| |].
  { rewrite Rabs_pos_eq by lra. eapply Rle_lt_trans; [exact R2|]. apply bpow_lt. lia. }
  split_and!; try done. by apply fdiv_valid.
Qed.

Lemma exp_middle log2 n g s v : exp_setup log2 n g s -> valid v -> fin v = true -> fle s v = true ->
  (FR v <= FR s * bpow radix2 1023)%R ->
  let t := rnd (FR (log2 (fdiv v s)) / FR (log2 g)) in
  (0 <= FR (log2 (fdiv v s)) <= 1025)%R /\ (0 <= t)%R /\ 0 <= Zfloor t < 2 ^ 31 - 1 /\
  exponential_index log2 n g s v = Ok (Z.min (n + 1) (1 + Zfloor t)).
Proof.
  intros ES Vv Fv Hle Hb. cbn zeta. destruct (lg_growth _ _ _ _ ES) as (Vg & Fg & _ & [G1 G2] & _).
  destruct ES as [Hl [Hn Hn2] (Vs & Fs & Hs) _]. unfold int32_max in Hn2.
  destruct (exp_quotient s v Vs Fs Hs Vv Fv Hle Hb) as (X1 & Vq & Fq & Rq & R1).
  destruct (acc log2 (fdiv v s) Hl Vq Fq) as (Va & Fa & E & L0 & L1); [by rewrite Rq|].
  unfold exponential_index. rewrite Hle.
  set (a := log2 (fdiv v s)) in *. set (b := log2 g) in *. set (L := lg (FR (fdiv v s))) in *.
  pose proof (bpow_gt_0 radix2 (-22)) as P0. pose proof (bpow_gt_0 radix2 (-52)) as P52.
  assert (0 <= FR a <= 1025)%R as [A0 A1].
  { apply Rabs_le_inv in E as [E1 E2]. 
    assert (bpow radix2 (-52) <= / 1024)%R. { change (/ 1024)%R with (bpow radix2 (-10)). apply bpow_le. lia. }
    assert (L * bpow radix2 (-52) <= 1024 * / 1024)%R by (apply Rmult_le_compat; lra).
    assert (L * bpow radix2 (-52) <= L * 1)%R by (apply Rmult_le_compat_l; lra). lra. }
  assert (0 < / FR b)%R by (apply Rinv_0_lt_compat; lra).
  assert (0 <= FR a / FR b <= IZR (2 ^ 31 - 2 ^ 20))%R as [Q0 Q1].
  { split; [apply Rmult_le_pos; lra|]. apply Rmult_le_reg_r with (FR b); [lra|].
    unfold Rdiv. rewrite Rmult_assoc, Rinv_l, Rmult_1_r by lra.
    apply Rle_trans with 1025%R; [done|].
    apply Rle_trans with (IZR (2 ^ 31 - 2 ^ 20) * (3 * bpow radix2 (-22)))%R; [|apply Rmult_le_compat_l; [by apply IZR_le|lra]].
    change (bpow radix2 (-22)) with (/ IZR (2 ^ 22))%R.
    apply Rmult_le_reg_r with (IZR (2 ^ 22)); [by apply IZR_lt|]. rewrite !Rmult_assoc, Rinv_l by (by apply not_0_IZR).
    rewrite Rmult_1_r, <- !mult_IZR. by apply IZR_le. }
  assert (0 <= rnd (FR a / FR b) <= IZR (2 ^ 31 - 2 ^ 20))%R as [T0 T1].
  { split.
    - rewrite <- (rnd_id 0%R) by apply generic_format_0. by apply rnd_le.
    - rewrite <- (rnd_id (IZR (2 ^ 31 - 2 ^ 20))) by (by apply format_int). by apply rnd_le. }
  destruct (fdiv_small a b) as [Ft Rt]; try done; [lra| |].
  { rewrite Rabs_pos_eq by done. eapply Rle_lt_trans; [exact T1|].
    apply Rlt_le_trans with (IZR (2 ^ 31)); [by apply IZR_lt|]. rewrite (IZR_Zpower radix2) by lia. apply bpow_le. lia. }
  assert (0 <= Zfloor (rnd (FR a / FR b)) < 2 ^ 31 - 1) as Hk.
  { split; [by apply Zfloor_lub|]. apply lt_IZR. eapply Rle_lt_trans; [apply Zfloor_lb|].
    eapply Rle_lt_trans; [exact T1|]. by apply IZR_lt. }
  split_and!; try done; try lia.
  unfold f_to_int. rewrite (f_trunc_spec _ Ft), Rt, Ztrunc_floor by done. set (k := Zfloor _) in *.
  unfold in_int32. rewrite (proj2 (Z.leb_le _ _)), (proj2 (Z.leb_le _ _)) by (unfold int32_min, int32_max; lia).
  cbn [andb obind]. rewrite !add32_fits by (unfold int32_min, int32_max; lia). cbn [obind].
  destruct (Z.ltb_spec (n + 1) (1 + k)); f_equal; lia.
Qed.

Lemma exp_below log2 n g s v : fle s v = false -> exponential_index log2 n g s v = Ok 0.
Proof. intros H. unfold exponential_index. by rewrite H. Qed.

(** the truncated quotient against the true logarithms *)
Lemma quotient_near a b A B : (0 <= A <= 1024)%R -> (bpow radix2 (-20) <= B <= 1024)%R -> (0 <= a <= 1025)%R ->
  (3 * bpow radix2 (-22) <= b <= 1025)%R ->
  (Rabs (a - A) <= A * bpow radix2 (-52))%R -> (Rabs (b - B) <= B * bpow radix2 (-52))%R ->
  let k := IZR (Zfloor (rnd (a / b))) in
  (0 <= k)%R -> (k * B <= A + bpow radix2 (-37))%R /\ (A < (k + 1) * B + bpow radix2 (-37))%R.
Proof.
  intros HA HB Ha Hb Ea Eb k Hk. pose proof (bpow_gt_0 radix2 (-22)) as P22. pose proof (bpow_gt_0 radix2 (-20)) as P20.
  pose proof (bpow_gt_0 radix2 (-52)) as P52.
  apply Rabs_le_inv in Ea as [Ea1 Ea2]. apply Rabs_le_inv in Eb as [Eb1 Eb2].
  assert (0 < / b)%R by (apply Rinv_0_lt_compat; lra).
  assert (0 <= a / b)%R as Q0 by (apply Rmult_le_pos; lra).
  pose proof (rel_abs (a / b)) as E. rewrite (Rabs_pos_eq (a / b)) in E by done. apply Rabs_le_inv in E as [E1 E2].
  pose proof (Zfloor_lb (rnd (a / b))) as K1. pose proof (Zfloor_ub (rnd (a / b))) as K2. fold k in K1, K2.
  set (t := rnd (a / b)) in *. assert (b * (a / b) = a)%R as Eab by (field; lra).
  set (z := (a / b)%R) in *. clearbody z t.
  set (u := bpow radix2 (-53)) in *. set (tau := bpow radix2 (-1075)) in *.
  assert (bpow radix2 (-52) = 2 * u)%R as U2. { change (bpow radix2 (-52)) with (bpow radix2 (1 + -53)). by rewrite bpow_plus. }
  rewrite U2 in *. assert (0 < u)%R as U0 by lra.
  assert (0 <= tau <= u)%R as [T0 T1] by (split; [apply bpow_ge_0|apply bpow_le; lia]).
  assert (bpow radix2 (-37) = 65536 * u)%R as ->.
  { change (bpow radix2 (-37)) with (bpow radix2 (16 + -53)). by rewrite bpow_plus. }
  assert (u <= / 1048576)%R as US. { change (/ 1048576)%R with (bpow radix2 (-20)). apply bpow_le. lia. }
  clearbody u tau.
  (* products *)
  assert (b * k <= a + a * u + b * tau)%R as M1.
  { apply Rle_trans with (b * (z + (z * u + tau)))%R; [apply Rmult_le_compat_l; lra|]. right. rewrite <- Eab. ring. }
  assert (a - a * u - b * tau < b * (k + 1))%R as M2.
  { apply Rle_lt_trans with (b * (z - (z * u + tau)))%R; [|apply Rmult_lt_compat_l; lra]. right. rewrite <- Eab. ring. }
  assert (a * u <= 1025 * u)%R by (apply Rmult_le_compat_r; lra).
  assert (b * tau <= 1025 * u)%R by (apply Rmult_le_compat; lra).
  assert (A * (2 * u) <= 1024 * (2 * u))%R by (apply Rmult_le_compat_r; lra).
  assert (B * (2 * u) <= B * / 2)%R by (apply Rmult_le_compat_l; lra).
  assert (b * k <= 1030)%R by lra.
  assert (k * B <= 2 * (b * k))%R as KB.
  { replace (2 * (b * k))%R with (k * (2 * b))%R by ring. apply Rmult_le_compat_l; lra. }
  assert (k * B * (2 * u) <= 2060 * (2 * u))%R by (apply Rmult_le_compat_r; lra).
  assert (k * (B - b) <= k * B * (2 * u))%R.
  { rewrite Rmult_assoc. apply Rmult_le_compat_l; lra. }
  assert ((k + 1) * (b - B) <= (k + 1) * (B * (2 * u)))%R by (apply Rmult_le_compat_l; lra).
  assert (B * (2 * u) <= 1024 * (2 * u))%R by (apply Rmult_le_compat_r; lra).
  split; lra.
Qed.

(** from logarithms back to numbers *)
Lemma from_ln x y : (0 < x)%R -> (0 < y)%R -> (ln x <= ln y + bpow radix2 (-36))%R -> (x <= y * (1 + / 2 ^ 35))%R.
Proof.
  intros Hx Hy H. rewrite pow_bpow. change (- Z.of_nat 35) with (-35).
  assert (bpow radix2 (-35) = 2 * bpow radix2 (-36))%R as P. { change (bpow radix2 (-35)) with (bpow radix2 (1 + -36)). by rewrite bpow_plus. }
  rewrite P. pose proof (bpow_gt_0 radix2 (-36)) as E0. assert (bpow radix2 (-36) <= / 4)%R as E1.
  { change (/ 4)%R with (bpow radix2 (-2)). apply bpow_le. lia. }
  set (e := bpow radix2 (-36)) in *. clearbody e.
  assert (0 < 1 + 2 * e)%R as F0 by lra.
  apply Rnot_lt_le. intros C. apply ln_increasing in C; [|by apply Rmult_lt_0_compat].
  rewrite ln_mult in C by done. pose proof (ln_ge_inv _ F0) as L.
  assert (e <= 1 - / (1 + 2 * e))%R; [|lra].
  apply Rmult_le_reg_r with (1 + 2 * e)%R; [done|]. rewrite Rmult_minus_distr_r, Rinv_l by lra. nra.
Qed.
Lemma from_ln_lt x y : (0 < x)%R -> (0 < y)%R -> (ln x < ln y + bpow radix2 (-36))%R -> (x < y * (1 + / 2 ^ 35))%R.
Proof.
  intros Hx Hy H. destruct (from_ln x y Hx Hy ltac:(lra)) as [L|E]; [done|].
  exfalso. revert H. rewrite E. rewrite pow_bpow. change (- Z.of_nat 35) with (-35).
  assert (bpow radix2 (-35) = 2 * bpow radix2 (-36))%R as P. { change (bpow radix2 (-35)) with (bpow radix2 (1 + -36)). by rewrite bpow_plus. }
  rewrite P. pose proof (bpow_gt_0 radix2 (-36)) as E0. assert (bpow radix2 (-36) <= / 4)%R as E1.
  { change (/ 4)%R with (bpow radix2 (-2)). apply bpow_le. lia. }
  set (e := bpow radix2 (-36)) in *. clearbody e. assert (0 < 1 + 2 * e)%R as F0 by lra.
  rewrite ln_mult by done. pose proof (ln_ge_inv _ F0) as L.
  assert (e <= 1 - / (1 + 2 * e))%R; [|lra].
  apply Rmult_le_reg_r with (1 + 2 * e)%R; [done|]. rewrite Rmult_minus_distr_r, Rinv_l by lra. nra.
Qed.

Lemma exp_near log2 n g s v : exp_setup log2 n g s -> valid v -> fin v = true -> (FR v <= FR s * bpow radix2 1023)%R ->
  exists i, exponential_index log2 n g s v = Ok i /\ 0 <= i <= n + 1 /\
    in_exponential_bucket (/ 2 ^ 35) n (real g) (real s) i (real v).
Proof.
  intros ES Vv Fv Hb. rewrite !real_FR.
  assert (1 <= n) as Hn by (by destruct ES as [_ [? _] _ _]).
  destruct (fle s v) eqn:Hle.
  2: { exists 0. split; [by apply exp_below|]. split; [lia|]. left. split; [done|]. destruct ES as [_ _ (Vs & Fs & _) _].
       rewrite fle_R in Hle by done. revert Hle. case Rle_bool_spec; [discriminate|done]. }
  destruct (exp_middle log2 n g s v ES Vv Fv Hle Hb) as (HA & HT & Hk & E). rewrite E.
  destruct (lg_growth _ _ _ _ ES) as (_ & _ & G1 & G2 & G3).
  destruct ES as [Hl _ (Vs & Fs & Hs) (Vg & Fg & Hg)].
  assert (FR s <= FR v)%R as Hsv. { rewrite fle_R in Hle by done. revert Hle. by case Rle_bool_spec. }
  destruct (exp_quotient s v Vs Fs Hs Vv Fv Hle Hb) as (X1 & Vq & Fq & Rq & R1).
  destruct (acc log2 (fdiv v s) Hl Vq Fq) as (_ & _ & A1 & A2); [by rewrite Rq|].
  pose proof (quotient_near _ _ _ _ A2 G1 HA G2 A1 G3) as Q. cbn zeta in Q.
  set (k := Zfloor _) in *. destruct (Q ltac:(apply IZR_le; lia)) as [Q1 Q2]. clear Q.
  pose proof ln2_bounds as Hln. rewrite Rq in Q1, Q2. set (x := (FR v / FR s)%R) in *.
  pose proof (ln_rnd x X1) as Lr. apply Rabs_le_inv in Lr as [Lr1 Lr2].
  assert (bpow radix2 (-52) <= bpow radix2 (-37))%R as P1 by (apply bpow_le; lia).
  assert (bpow radix2 (-36) = 2 * bpow radix2 (-37))%R as P2. { change (bpow radix2 (-36)) with (bpow radix2 (1 + -37)). by rewrite bpow_plus. }
  pose proof (bpow_gt_0 radix2 (-37)) as P0.
  assert (0 < FR g)%R as Hg0. { assert (0 < / 2 ^ 19)%R by (apply Rinv_0_lt_compat; lra). lra. }
  assert (1 <= FR g)%R as Hg1. { assert (0 < / 2 ^ 19)%R by (apply Rinv_0_lt_compat; lra). lra. }
  assert (bpow radix2 (-37) * ln 2 <= bpow radix2 (-37))%R as P3.
  { rewrite <- (Rmult_1_r (bpow radix2 (-37))) at 2. apply Rmult_le_compat_l; lra. }
  assert (IZR k * ln (FR g) <= ln x + bpow radix2 (-36))%R as LO.
  { rewrite (lg_ln (FR g)), <- Rmult_assoc. apply Rmult_le_compat_r with (r := ln 2) in Q1; [|lra].
    rewrite Rmult_plus_distr_r, <- lg_ln in Q1. lra. }
  assert (ln x < (IZR k + 1) * ln (FR g) + bpow radix2 (-36))%R as HI.
  { rewrite (lg_ln (FR g)), <- Rmult_assoc. apply Rmult_lt_compat_r with (r := ln 2) in Q2; [|lra].
    rewrite Rmult_plus_distr_r, <- lg_ln in Q2. lra. }
  assert (forall j, 0 < powerRZ (FR g) j)%R as PG by (intros j; by apply powerRZ_lt).
  assert (FR v = FR s * x)%R as Ev by (unfold x; field; lra).
  assert (forall j, j <= k -> (FR s * powerRZ (FR g) j <= FR v * (1 + / 2 ^ 35))%R) as LO'.
  { intros j Hj. rewrite Ev, Rmult_assoc. apply Rmult_le_compat_l; [lra|]. apply from_ln; [done|lra|].
    rewrite ln_powerRZ by done. eapply Rle_trans; [|exact LO]. apply Rmult_le_compat_r; [|by apply IZR_le].
    destruct Hg1 as [?| <-]; [|rewrite ln_1; lra]. left. rewrite <- ln_1. apply ln_increasing; lra. }
  assert (FR v < FR s * powerRZ (FR g) (k + 1) * (1 + / 2 ^ 35))%R as HI'.
  { rewrite Ev, Rmult_assoc. apply Rmult_lt_compat_l; [lra|]. apply from_ln_lt; [lra|done|].
    rewrite ln_powerRZ, plus_IZR by done. exact HI. }
  exists (Z.min (n + 1) (1 + k)). split; [done|]. split; [lia|]. right.
  destruct (Z.le_gt_cases n k) as [C|C].
  - right. split; [lia|]. split; [done|]. by apply LO'.
  - left. replace (Z.min (n + 1) (1 + k)) with (k + 1) by lia. split; [lia|]. split; [done|]. split; [apply LO'; lia|done].
Qed.

(** ** Order *)
Lemma exp_monotone log2 n g s v v' : exp_setup log2 n g s -> monotone_log2 log2 -> valid v -> valid v' ->
  fin v = true -> fin v' = true -> (FR v' <= FR s * bpow radix2 1023)%R -> fle v v' = true ->
  exists i i', exponential_index log2 n g s v = Ok i /\ exponential_index log2 n g s v' = Ok i' /\ 0 <= i <= i' /\ i' <= n + 1.
Proof.
  intros ES Hm Vv Vv' Fv Fv' Hb' Hle. assert (1 <= n) as Hn by (by destruct ES as [_ [? _] _ _]).
  assert (FR v <= FR v')%R as Hvv. { rewrite fle_R in Hle by done. revert Hle. by case Rle_bool_spec. }
  assert (FR v <= FR s * bpow radix2 1023)%R as Hb by lra.
  destruct (fle s v) eqn:L.
  - assert (fle s v' = true) as L' by (by eapply fle_trans).
    destruct (exp_middle log2 n g s v ES Vv Fv L Hb) as (A & T & K & E).
    destruct (exp_middle log2 n g s v' ES Vv' Fv' L' Hb') as (A' & T' & K' & E').
    rewrite E, E'. eexists _, _. split; [done|]. split; [done|].
    destruct (lg_growth _ _ _ _ ES) as (_ & _ & _ & [G2 _] & _). pose proof (bpow_gt_0 radix2 (-22)).
    destruct ES as [Hl _ (Vs & Fs & Hs) _].
    destruct (exp_quotient s v Vs Fs Hs Vv Fv L Hb) as (X1 & Vq & Fq & Rq & R1).
    destruct (exp_quotient s v' Vs Fs Hs Vv' Fv' L' Hb') as (X1' & Vq' & Fq' & Rq' & R1').
    assert (Zfloor (rnd (FR (log2 (fdiv v s)) / FR (log2 g))) <= Zfloor (rnd (FR (log2 (fdiv v' s)) / FR (log2 g)))); [|lia].
    apply Zfloor_le, rnd_le. apply Rmult_le_compat_r; [left; apply Rinv_0_lt_compat; lra|].
    destruct (acc log2 (fdiv v s) Hl Vq Fq) as (Va & Fa & _); [by rewrite Rq|].
    destruct (acc log2 (fdiv v' s) Hl Vq' Fq') as (Va' & Fa' & _); [by rewrite Rq'|].
    assert (fle (log2 (fdiv v s)) (log2 (fdiv v' s)) = true) as F.
    { apply Hm; try done; [by apply fin_finite..|rewrite real_FR, Rq; lra|].
      rewrite fle_R, Rq, Rq' by done. apply Rle_bool_true, rnd_le. apply Rmult_le_compat_r; [left; by apply Rinv_0_lt_compat|done]. }
    rewrite fle_R in F by done. revert F. by case Rle_bool_spec.
  - rewrite exp_below by done. destruct (exp_near log2 n g s v' ES Vv' Fv' Hb') as (i' & E' & Hi' & _).
    exists 0, i'. split_and!; [done|done|lia..].
Qed.

(** Buckets do not overlap. *)
Lemma exp_bucket_unique n g s v i j : (1 < g)%R -> (0 < s)%R -> 1 <= n ->
  in_exponential_bucket 0 n g s i v -> in_exponential_bucket 0 n g s j v -> i = j.
Proof.
  intros Hg Hs Hn.
  assert (forall a b, (s * powerRZ g a <= v)%R -> (v < s * powerRZ g b)%R -> a < b) as X.
  { intros a b H1 H2. assert (powerRZ g a < powerRZ g b)%R as P.
    { apply Rmult_lt_reg_l with s; [done|]. lra. }
    apply ln_increasing in P; [|by apply powerRZ_lt; lra]. rewrite !ln_powerRZ in P by lra.
    apply lt_IZR. apply Rmult_lt_reg_r with (ln g); [|done]. rewrite <- ln_1. apply ln_increasing; lra. }
  unfold in_exponential_bucket. rewrite ?Rplus_0_r, ?Rmult_1_r.
  intros [[-> H1]|[(R1 & O1 & H1 & H1')|(-> & O1 & H1)]] [[-> H2]|[(R2 & O2 & H2 & H2')|(-> & O2 & H2)]];
    rewrite ?Rplus_0_r, ?Rmult_1_r in *; try done; try (exfalso; lra).
  - assert (i - 1 < j) by (by apply X). assert (j - 1 < i) by (by apply X). lia.
  - assert (n < i) by (by apply X). lia.
  - assert (n < j) by (by apply X). lia.
Qed.

(** ** AddSample *)
Section add.
Context (log2 : double -> double) (d : distribution) (l : list double) (n : Z) (g s : double).
Context (Hl : accurate_log2 log2) (Hb : built log2 d l) (Hc : d_count d < int64_max) (Ho : d_option d = BExponential n g s).
Context (Vg : is_double g) (Vs : is_double s) (Fg : finite g) (Fs : finite s) (Hg : (1 + / 2 ^ 19 <= real g)%R).

Lemma exp_set : exp_setup log2 n g s.
Proof using All.
  pose proof (built_option _ _ _ Hb) as Hopt. rewrite Ho in Hopt. destruct Hopt as (Hn & Hn2 & _ & Hs).
  apply fin_finite in Fg, Fs. rewrite real_FR in Hg. constructor; try done.
  split_and!; try done. rewrite fle_R in Hs by done. change (FR f_zero) with 0%R in Hs.
  revert Hs. case Rle_bool_spec; [discriminate|done].
Qed.
Lemma exp_add_index v i : exponential_index log2 n g s v = Ok i -> 0 <= i <= n + 1 ->
  exists d', AddSample log2 v d = Ok (SOk, d') /\ counted_in i d d'.
Proof using All.
  intros E Hi. destruct (add_sample_ok log2 d l v (Z.to_nat i)) as (d' & Ha & Hr); [done|done|by rewrite Ho| | |].
  - rewrite Ho. cbn [sample_index]. rewrite E. f_equal. lia.
  - rewrite Ho. cbn [layout_buckets]. lia.
  - exists d'. split; [done|]. split; [|done].
    destruct (built_inv _ _ _ Hb) as (_ & _ & _ & H4). rewrite Ho in H4. cbn [layout_buckets] in H4. lia.
Qed.
Lemma exp_range v : (real v <= real s * 2 ^ 1023)%R -> (FR v <= FR s * bpow radix2 1023)%R.
Proof using All.
  rewrite !real_FR. intros H. rewrite bpow_powerRZ. change (IZR radix2) with 2%R.
  change 1023 with (Z.of_nat 1023). rewrite <- pow_powerRZ. exact H.
Qed.
Lemma exp_add_near v : is_double v -> finite v -> (real v <= real s * 2 ^ 1023)%R ->
  exists d' i, AddSample log2 v d = Ok (SOk, d') /\ counted_in i d d' /\
    in_exponential_bucket (/ 2 ^ 35) n (real g) (real s) i (real v).
Proof using All.
  intros Vv Fv%fin_finite Hv%exp_range. destruct (exp_near log2 n g s v exp_set Vv Fv Hv) as (i & E & Hi & H).
  destruct (exp_add_index v i E Hi) as (d' & H1 & H2). by exists d', i.
Qed.
Lemma exp_add_order v v' : monotone_log2 log2 -> is_double v -> finite v -> is_double v' -> finite v' ->
  (real v' <= real s * 2 ^ 1023)%R -> fle v v' = true ->
  exists d1 d2 i i', AddSample log2 v d = Ok (SOk, d1) /\ counted_in i d d1 /\
    AddSample log2 v' d = Ok (SOk, d2) /\ counted_in i' d d2 /\ i <= i'.
Proof using All.
  intros Hm Vv Fv%fin_finite Vv' Fv'%fin_finite Hv%exp_range H.
  destruct (exp_monotone log2 n g s v v' exp_set Hm Vv Vv' Fv Fv' Hv H) as (i & i' & E & E' & Hi & Hi').
  destruct (exp_add_index v i E ltac:(lia)) as (d1 & H1 & H2).
  destruct (exp_add_index v' i' E' ltac:(lia)) as (d2 & H3 & H4). exists d1, d2, i, i'. split_and!; try done. lia.
Qed.
End add.

(** ** The correctly rounded logarithm *)
Definition log2_cr (x : double) : double :=
  let y := lg (real x) in
  SpecFloat.binary_normalize 53 1024 (Znearest (fun z => negb (Z.even z)) (scaled_mantissa radix2 fx y)) (cexp radix2 fx y) false.

Lemma lg_abs x : valid x -> fin x = true -> (0 < FR x)%R -> (Rabs (lg (FR x)) <= 1074)%R.
Proof.
  intros V F H. apply Rabs_le. split.
  - replace (- (1074))%R with (lg (bpow radix2 (-1074))) by (by rewrite lg_bpow). apply lg_le; [apply bpow_gt_0|].
    apply (generic_format_ge_bpow radix2 fx (-1074)); [|done|by apply FR_format].
    intros e. unfold SpecFloat.fexp, SpecFloat.emin. lia.
  - apply Rle_trans with 1024%R; [|lra]. rewrite <- (lg_bpow 1024). apply lg_le; [done|]. destruct (to_bin x V) as [b <-]. rewrite FR_B.
    pose proof (abs_B2R_lt_emax 53 1024 b). pose proof (Rle_abs (B2R b)). lra.
Qed.
Lemma log2_cr_spec x : valid x -> fin x = true -> (1 <= FR x)%R ->
  valid (log2_cr x) /\ fin (log2_cr x) = true /\ FR (log2_cr x) = rnd (lg (FR x)).
Proof.
  intros V F H. pose proof (lg_abs x V F ltac:(lra)) as L. unfold log2_cr. rewrite normalize_equiv, real_FR. split; [apply valid_B|].
  set (y := lg (FR x)) in *.
  pose proof (binary_normalize_correct 53 1024 Float64Proofs.Hprec Float64Proofs.Hmax mode_NE (Znearest (fun z => negb (Z.even z)) (scaled_mantissa radix2 fx y)) (cexp radix2 fx y) false) as C.
  cbn zeta in C. change (F2R _) with (rnd y) in C.
  rewrite (rnd_id (rnd y)) in C by (apply generic_format_round; typeclasses eauto).
  rewrite Rlt_bool_true in C.
  - rewrite fin_B, FR_B. destruct C as (C1 & C2 & _). done.
  - assert (- IZR 1074 <= rnd y <= IZR 1074)%R as [H1 H2].
    { apply Rabs_le_inv in L as [L1 L2]. split.
      - change (- IZR 1074)%R with (IZR (-1074)). rewrite <- (rnd_id (IZR (-1074))) by (by apply format_int). apply rnd_le. exact L1.
      - rewrite <- (rnd_id (IZR 1074)) by (by apply format_int). by apply rnd_le. }
    apply Rle_lt_trans with (IZR 1074); [by apply Rabs_le|].
    apply Rlt_le_trans with (IZR (2 ^ 11)); [by apply IZR_lt|]. rewrite (IZR_Zpower radix2) by lia. apply bpow_le. lia.
Qed.
Lemma log2_cr_nearest : nearest_log2 log2_cr.
Proof.
  intros x V F%fin_finite H. rewrite real_FR in H. destruct (log2_cr_spec x V F H) as (V' & F' & E).
  split_and!; [done|by apply fin_finite|]. intros y Vy Fy. rewrite !real_FR, E.
  pose proof (round_N_pt radix2 fx (fun z => negb (Z.even z)) (lg (FR x))) as [_ N].
  apply (N (FR y)). by apply FR_format.
Qed.
Lemma log2_cr_monotone : monotone_log2 log2_cr.
Proof.
  intros x y Vx Fx%fin_finite Vy Fy%fin_finite H Hle. rewrite real_FR in H.
  rewrite fle_R in Hle by done. revert Hle. case Rle_bool_spec; [|discriminate]. intros Hle _.
  destruct (log2_cr_spec x Vx Fx H) as (V & F & E). destruct (log2_cr_spec y Vy Fy ltac:(lra)) as (V' & F' & E').
  rewrite fle_R by done; rewrite E, E'. apply Rle_bool_true, rnd_le. apply lg_le; lra.
Qed.
Lemma above_one x : valid x -> (1 < FR x)%R -> (1 + bpow radix2 (-52) <= FR x)%R.
Proof.
  intros V H. pose proof (FR_format x V) as G. unfold generic_format in G.
  assert (-52 <= cexp radix2 fx (FR x)) as Hc.
  { unfold cexp, SpecFloat.fexp, SpecFloat.emin. assert (0 < mag radix2 (FR x)); [|lia].
    apply mag_gt_bpow. change (bpow radix2 0) with 1%R. rewrite Rabs_pos_eq by lra. lra. }
  set (m := Ztrunc _) in G. unfold F2R in G. cbn [Fnum Fexp] in G. set (c := cexp radix2 fx (FR x)) in *.
  assert (FR x = IZR (m * 2 ^ (c + 52)) * bpow radix2 (-52))%R as E.
  { rewrite G at 1. rewrite mult_IZR, (IZR_Zpower radix2), Rmult_assoc, <- bpow_plus by lia. do 2 f_equal. lia. }
  assert (1 = IZR (2 ^ 52) * bpow radix2 (-52))%R as E1.
  { rewrite (IZR_Zpower radix2) by lia. by rewrite <- bpow_plus. }
  rewrite E. rewrite E in H. rewrite E1 in H at 1. pose proof (bpow_gt_0 radix2 (-52)).
  apply Rmult_lt_reg_r, lt_IZR in H; [|done].
  apply Rle_trans with (IZR (2 ^ 52 + 1) * bpow radix2 (-52))%R; [rewrite plus_IZR; lra|].
  apply Rmult_le_compat_r; [lra|]. apply IZR_le. lia.
Qed.
Lemma lg_not_small x : valid x -> (1 <= FR x)%R -> lg (FR x) = 0%R \/ (bpow radix2 (-1022) <= lg (FR x))%R.
Proof.
  intros V [H| <-]; [|left; unfold lg; rewrite ln_1; lra]. right. pose proof ln2_bounds as Hln.
  pose proof (above_one x V H) as A.
  destruct (Rle_or_lt 2 (FR x)) as [B|B].
  - apply Rle_trans with (lg 2); [|apply lg_le; lra]. replace (lg 2) with 1%R by (unfold lg; field; lra).
    change 1%R with (bpow radix2 0). apply bpow_le. lia.
  - apply Rle_trans with (ln (FR x)).
    + eapply Rle_trans; [|apply ln_ge_inv; lra]. apply Rle_trans with (bpow radix2 (-54)); [apply bpow_le; lia|].
      assert (bpow radix2 (-52) = 4 * bpow radix2 (-54))%R as P.
      { change (bpow radix2 (-52)) with (bpow radix2 (2 + -54)). by rewrite bpow_plus. }
      rewrite P in A. pose proof (bpow_gt_0 radix2 (-54)). set (e := bpow radix2 (-54)) in *.
      assert (/ FR x <= 1 - e)%R; [|lra]. apply Rmult_le_reg_l with (FR x); [lra|]. rewrite Rinv_r by lra. nra.
    + rewrite lg_ln. rewrite <- (Rmult_1_r (lg (FR x))) at 2. apply Rmult_le_compat_l; [apply lg_pos; lra|lra].
Qed.
Lemma log2_cr_accurate : accurate_log2 log2_cr.
Proof.
  intros x V F%fin_finite H. rewrite real_FR in H. destruct (log2_cr_spec x V F H) as (V' & F' & E).
  split_and!; [done|by apply fin_finite|]. rewrite !real_FR, E. unfold Rdiv. rewrite pow_bpow. change (- Z.of_nat 52) with (-52).
  destruct (lg_not_small x V H) as [->|L].
  - rewrite rnd_id by apply generic_format_0. rewrite Rminus_0_r, Rabs_R0. lra.
  - pose proof (bpow_gt_0 radix2 (-1022)). pose proof (half_ulp (lg (FR x))) as U.
    pose proof (ulp_big (lg (FR x))) as B. rewrite (Rabs_pos_eq (lg (FR x))) in * by lra. specialize (B L).
    pose proof (bpow_gt_0 radix2 (-52)). assert (0 <= lg (FR x) * bpow radix2 (-52))%R by (apply Rmult_le_pos; lra). lra.
Qed.

(** ** Not exact, even so: the number before 256 with growth factor 2 and scale 1 *)
Definition f_before_256 : double := S754_finite false 9007199254740991 (-45).
Lemma nearest_is log2 x y : nearest_log2 log2 -> valid x -> fin x = true -> (1 <= FR x)%R -> valid y -> fin y = true ->
  (FR y <> 0)%R -> (forall z, generic_format radix2 fx z -> z <> FR y -> (Rabs (FR y - lg (FR x)) < Rabs (z - lg (FR x)))%R) ->
  log2 x = y.
Proof.
  intros Hn Vx Fx H Vy Fy H0 Hz. destruct (Hn x Vx ltac:(by apply fin_finite)) as (V & F & N); [by rewrite real_FR|].
  apply fin_finite in F. specialize (N y Vy ltac:(by apply fin_finite)). rewrite !real_FR in N.
  assert (FR (log2 x) = FR y) as E.
  { destruct (Req_dec (FR (log2 x)) (FR y)) as [E|E]; [done|]. specialize (Hz _ (FR_format _ V) E). lra. }
  revert E V F. generalize (log2 x) as z. intros z E V F.
  destruct (to_bin z V) as [a <-], (to_bin y Vy) as [b <-]. rewrite !FR_B in *. f_equal.
  rewrite fin_B in *. apply B2R_inj; [| |done].
  - by destruct a.
  - by destruct b.
Qed.

Lemma below_eight z : generic_format radix2 fx z -> (z < 8)%R -> (z <= 8 - bpow radix2 (-50))%R.
Proof.
  intros G H. destruct (Rlt_or_le z 4) as [S|B].
  { assert (bpow radix2 (-50) <= 1)%R by (change 1%R with (bpow radix2 0); apply bpow_le; lia). lra. }
  unfold generic_format in G.
  assert (-50 <= cexp radix2 fx z) as Hc.
  { unfold cexp, SpecFloat.fexp, SpecFloat.emin. assert (2 < mag radix2 z); [|lia].
    apply mag_gt_bpow. change (bpow radix2 2) with 4%R. rewrite Rabs_pos_eq by lra. lra. }
  set (m := Ztrunc _) in G. unfold F2R in G. cbn [Fnum Fexp] in G. set (c := cexp radix2 fx z) in *.
  assert (z = IZR (m * 2 ^ (c + 50)) * bpow radix2 (-50))%R as E.
  { rewrite G at 1. rewrite mult_IZR, (IZR_Zpower radix2), Rmult_assoc, <- bpow_plus by lia. do 2 f_equal. lia. }
  assert (8 = IZR (2 ^ 53) * bpow radix2 (-50))%R as E8.
  { rewrite (IZR_Zpower radix2) by lia. by rewrite <- bpow_plus. }
  rewrite E in H. rewrite E8 in H. pose proof (bpow_gt_0 radix2 (-50)).
  apply Rmult_lt_reg_r, lt_IZR in H; [|done].
  rewrite E. apply Rle_trans with (IZR (2 ^ 53 - 1) * bpow radix2 (-50))%R; [|rewrite minus_IZR, E8; lra].
  apply Rmult_le_compat_r; [lra|]. apply IZR_le. lia.
Qed.

Lemma exp_inexact : exists d, InitExponential 10 f_two f_one empty_distribution = Ok (SOk, d) /\
  forall log2, nearest_log2 log2 -> exists d', AddSample log2 f_before_256 d = Ok (SOk, d') /\ counted_in 9 d d' /\
    in_exponential_bucket 0 10 (real f_two) (real f_one) 8 (real f_before_256) /\
    ~ in_exponential_bucket 0 10 (real f_two) (real f_one) 9 (real f_before_256).
Proof.
  exists (set_buckets (replicate 12 0) (set_option (BExponential 10 f_two f_one) empty_distribution)).
  split; [vm_compute; reflexivity|]. intros log2 Hn.
  assert (FR f_one = 1%R) as R1. { exact (proj2 (proj2 (f_of_int_spec 1 eq_refl))). }
  assert (FR f_two = 2%R) as R2 by exact (proj2 (proj2 (f_of_int_spec 2 eq_refl))).
  assert (FR (f_of_int 8) = 8%R) as R8 by exact (proj2 (proj2 (f_of_int_spec 8 eq_refl))).
  assert (FR f_before_256 = 256 * (1 - bpow radix2 (-53)))%R as RV.
  { unfold FR, f_before_256. cbn [SF2R]. unfold F2R. cbn [cond_Zopp Fnum Fexp].
    change (Z.pos 9007199254740991) with (2 ^ 53 - 1). rewrite minus_IZR, (IZR_Zpower radix2) by lia.
    change (bpow radix2 (-45)) with (bpow radix2 (8 + -53)). rewrite bpow_plus. change (bpow radix2 8) with 256%R.
    assert (bpow radix2 53 * bpow radix2 (-53) = 1)%R by (by rewrite <- bpow_plus). lra. }
  pose proof ln2_bounds as Hln. pose proof (bpow_gt_0 radix2 (-53)) as Y0.
  assert (bpow radix2 (-53) <= / 4)%R as Y1. { change (/ 4)%R with (bpow radix2 (-2)). apply bpow_le. lia. }
  assert (bpow radix2 (-50) = 8 * bpow radix2 (-53))%R as P50.
  { change (bpow radix2 (-50)) with (bpow radix2 (3 + -53)). by rewrite bpow_plus. }
  pose proof below_eight as B8. rewrite P50 in B8. set (y := bpow radix2 (-53)) in *.
  assert (log2 f_two = f_one) as L2.
  { apply nearest_is; try done; [rewrite R2; lra|rewrite R1; lra|]. intros z _ Hz. rewrite R1, R2 in *.
    replace (lg 2) with 1%R by (unfold lg; field; lra). unfold Rminus at 1. rewrite Rplus_opp_r, Rabs_R0.
    apply Rabs_pos_lt. lra. }
  assert (0 < 8 - lg (FR f_before_256) < 4 * y)%R as [D0 D1].
  { rewrite RV. unfold lg. rewrite ln_mult by lra.
    replace (ln 256) with (8 * ln 2)%R.
    2: { change 256%R with (IZR (2 ^ 8)). rewrite (IZR_Zpower radix2) by lia. rewrite (lg_ln (bpow radix2 8)), lg_bpow. done. }
    replace (8 - (8 * ln 2 + ln (1 - y)) / ln 2)%R with (- ln (1 - y) / ln 2)%R by (field; lra).
    assert (0 < 1 - y)%R as H1 by lra. pose proof (ln_ge_inv _ H1) as G. pose proof (ln_le_minus _ H1) as G'.
    assert (/ (1 - y) <= 1 + 2 * y)%R as I.
    { apply Rmult_le_reg_r with (1 - y)%R; [done|]. rewrite Rinv_l by lra. nra. }
    assert (0 < / ln 2 < 2)%R as [I0 I1].
    { split; [apply Rinv_0_lt_compat; lra|]. apply Rmult_lt_reg_r with (ln 2); [lra|]. rewrite Rinv_l by lra. lra. }
    unfold Rdiv. split; [apply Rmult_lt_0_compat; lra|].
    apply Rlt_le_trans with (- ln (1 - y) * 2)%R; [apply Rmult_lt_compat_l; lra|lra]. }
  assert (log2 f_before_256 = f_of_int 8) as L8.
  { apply nearest_is; try done; [rewrite RV; lra|rewrite R8; lra|]. intros z G Hz. rewrite R8 in *.
    set (L := lg (FR f_before_256)) in *. rewrite (Rabs_pos_eq (8 - L)) by lra.
    destruct (Rtotal_order z 8) as [S|[B|B]]; [|done|].
    - pose proof (B8 z G S). rewrite Rabs_left; lra.
    - rewrite Rabs_pos_eq; lra. }
  eexists. split.
  { unfold AddSample. cbn [d_option set_buckets set_option]. change (UpdateGeneralStatistics _ _ _) with
      (Ok (Stats 1 f_before_256 f_before_256 f_before_256 f_zero)). cbn [obind].
    unfold exponential_index. change (fle f_one f_before_256) with true. cbv iota.
    assert (fdiv f_before_256 f_one = f_before_256) as -> by (vm_compute; reflexivity). rewrite L2, L8.
    vm_compute. reflexivity. }
  split; [split; [vm_compute; done|reflexivity]|].
  rewrite !real_FR, R1, R2, RV.
  assert (powerRZ 2 (8 - 1) = 128)%R as E7 by (change (2 ^ 7 = 128)%R; ring). assert (powerRZ 2 8 = 256)%R as E8 by (change (2 ^ 8 = 256)%R; ring).
  assert (in_exponential_bucket 0 10 2 1 8 (256 * (1 - y))) as IN.
  { right. left. rewrite E7, E8. split; [lia|]. split; [lra|]. split; lra. }
  split; [exact IN|]. intros IN'. assert (8 = 9) as C; [|done].
  eapply exp_bucket_unique; [| | |exact IN|exact IN']; [lra|lra|lia].
Qed.
