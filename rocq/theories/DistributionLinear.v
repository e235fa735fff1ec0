(** Which bucket of a linear layout a sample lands in. *)
From Coq Require Import Reals Lra.
From Flocq Require Import Core.Core IEEE754.BinarySingleNaN.
From Verif Require Import Proto Distribution DistributionSpec DistributionRSpec DistributionProofs Float64Proofs.
Open Scope Z_scope.

#[local] Instance Hprec : Prec_gt_0 53. Proof. done. Qed.
#[local] Instance fx_valid : Valid_exp fx.
Proof. apply (fexp_correct 53 1024). done. Qed.
#[local] Instance rnd_valid : Valid_rnd (round_mode mode_NE).
Proof. apply valid_rnd_round_mode. Qed.

(** ** Rounding errors *)
Lemma half_ulp x : (Rabs (rnd x - x) <= / 2 * ulp radix2 fx x)%R.
Proof. exact (error_le_half_ulp radix2 fx (fun x => negb (Z.even x)) x). Qed.

Lemma ulp_big x : (bpow radix2 (-1022) <= Rabs x)%R -> (ulp radix2 fx x <= Rabs x * bpow radix2 (-52))%R.
Proof. exact (ulp_FLT_le radix2 (-1074) 53 x). Qed.

(** A multiple of the smallest positive double is rounded with a relative error. *)
Lemma on_grid m e : -1074 <= e -> (Rabs (IZR m * bpow radix2 e) < bpow radix2 (-1022))%R ->
  generic_format radix2 fx (IZR m * bpow radix2 e)%R.
Proof.
  intros He H. apply generic_format_FLT.
  assert (Z.abs m < 2 ^ 52) as Hm.
  { apply lt_IZR. rewrite abs_IZR, (IZR_Zpower radix2) by lia. rewrite Rabs_mult in H.
    rewrite (Rabs_pos_eq (bpow radix2 e)) in H by apply bpow_ge_0.
    apply Rmult_lt_reg_r with (bpow radix2 e); [apply bpow_gt_0|]. eapply Rlt_le_trans; [exact H|].
    rewrite <- bpow_plus. apply bpow_le. lia. }
  apply (FLT_spec radix2 (-1074) 53 _ (Float radix2 m e)); cbn [Fnum Fexp]; [done|cbn; lia|done].
Qed.
Lemma rel_grid m e : -1074 <= e ->
  (Rabs (rnd (IZR m * bpow radix2 e) - IZR m * bpow radix2 e) <= Rabs (IZR m * bpow radix2 e) * bpow radix2 (-53))%R.
Proof.
  intros He. set (x := (IZR m * bpow radix2 e)%R).
  destruct (Rle_or_lt (bpow radix2 (-1022)) (Rabs x)) as [Hb|Hs].
  - pose proof (half_ulp x). pose proof (ulp_big x Hb).
    change (bpow radix2 (-53)) with (bpow radix2 (-1 + -52)). rewrite bpow_plus. change (bpow radix2 (-1)) with (/ 2)%R. lra.
  - rewrite rnd_id by (by apply on_grid). unfold Rminus. rewrite Rplus_opp_r, Rabs_R0.
    apply Rmult_le_pos; [apply Rabs_pos|apply bpow_ge_0].
Qed.
(** Any real is rounded with a relative error and an absolute one. *)
Lemma rel_abs x : (Rabs (rnd x - x) <= Rabs x * bpow radix2 (-53) + bpow radix2 (-1075))%R.
Proof.
  pose proof (bpow_gt_0 radix2 (-1075)).
  destruct (Rle_or_lt (bpow radix2 (-1022)) (Rabs x)) as [Hb|Hs].
  - pose proof (half_ulp x). pose proof (ulp_big x Hb).
    change (bpow radix2 (-53)) with (bpow radix2 (-1 + -52)). rewrite bpow_plus. change (bpow radix2 (-1)) with (/ 2)%R. lra.
  - pose proof (half_ulp x) as U. pose proof (ulp_FLT_small radix2 (-1074) 53 x) as S.
    change (FLT_exp (-1074) 53) with fx in S. rewrite S in U.
    2: { eapply Rlt_trans; [exact Hs|]. apply bpow_lt. lia. }
    change (bpow radix2 (-1075)) with (bpow radix2 (-1 + -1074)). rewrite bpow_plus. change (bpow radix2 (-1)) with (/ 2)%R.
    pose proof (Rmult_le_pos _ _ (Rabs_pos x) (bpow_ge_0 radix2 (-53))). lra.
Qed.

(** Every finite double is a multiple of the smallest positive one. *)
Lemma double_grid x : valid x -> exists m, FR x = (IZR m * bpow radix2 (-1074))%R.
Proof.
  intros V. pose proof (FR_format x V) as G.
  pose proof (FLT_format_generic radix2 (-1074) 53 (FR x) G) as [f Hf Hm He]. destruct f as [m e]. cbn [Fnum Fexp] in *.
  exists (m * 2 ^ (e + 1074)). rewrite Hf. unfold F2R. cbn [Fnum Fexp].
  rewrite mult_IZR, (IZR_Zpower radix2), Rmult_assoc, <- bpow_plus by lia. do 2 f_equal. lia.
Qed.

Lemma rel_sub x y : valid x -> valid y ->
  (Rabs (rnd (FR x - FR y) - (FR x - FR y)) <= Rabs (FR x - FR y) * bpow radix2 (-53))%R.
Proof.
  intros (a & ->)%double_grid (b & ->)%double_grid.
  replace (IZR a * bpow radix2 (-1074) - IZR b * bpow radix2 (-1074))%R with (IZR (a - b) * bpow radix2 (-1074))%R
    by (rewrite minus_IZR; ring).
  by apply rel_grid.
Qed.
Lemma rel_add x y : valid x -> valid y ->
  (Rabs (rnd (FR x + FR y) - (FR x + FR y)) <= Rabs (FR x + FR y) * bpow radix2 (-53))%R.
Proof.
  intros (a & ->)%double_grid (b & ->)%double_grid.
  replace (IZR a * bpow radix2 (-1074) + IZR b * bpow radix2 (-1074))%R with (IZR (a + b) * bpow radix2 (-1074))%R
    by (rewrite plus_IZR; ring).
  by apply rel_grid.
Qed.
Lemma rel_mul n x : valid x ->
  (Rabs (rnd (IZR n * FR x) - IZR n * FR x) <= Rabs (IZR n * FR x) * bpow radix2 (-53))%R.
Proof.
  intros (a & ->)%double_grid.
  replace (IZR n * (IZR a * bpow radix2 (-1074)))%R with (IZR (n * a) * bpow radix2 (-1074))%R
    by (rewrite mult_IZR; ring).
  by apply rel_grid.
Qed.

(** ** The computation of the index, read over the reals *)
Record linear_setup (n : Z) (w o : double) : Prop := {
  ls_n : 1 <= n /\ n + 2 <= int32_max;
  ls_w : valid w /\ fin w = true /\ (0 < FR w)%R;
  ls_o : valid o /\ fin o = true;
  ls_p : valid (fmul (f_of_int n) w) /\ fin (fmul (f_of_int n) w) = true /\ FR (fmul (f_of_int n) w) = rnd (IZR n * FR w);
  ls_u : valid (linear_upper n w o) /\ fin (linear_upper n w o) = true /\
         FR (linear_upper n w o) = rnd (FR o + FR (fmul (f_of_int n) w)) }.

Lemma linear_set n w o : 1 <= n -> n + 2 <= int32_max -> valid w -> valid o ->
  fle w f_zero = false -> fin (linear_upper n w o) = true -> linear_setup n w o.
Proof.
  intros Hn Hn2 Vw Vo Hw Hu. unfold int32_max in Hn2.
  destruct (f_of_int_spec n) as (Vn & Fn & Rn); [lia|].
  set (p := fmul (f_of_int n) w) in *. pose proof Hu as Hu0. unfold linear_upper in Hu. fold p in Hu.
  assert (valid p) as Vp by (by apply fmul_valid).
  destruct (fadd_fin o p Vo Vp Hu) as (Fo & Fp & Ru).
  assert (1 <= IZR n)%R as Hn1 by (apply IZR_le; lia).
  destruct (fmul_fin (f_of_int n) w Vn Vw Fn) as [Fw Rp]; [rewrite Rn; lra|done|]. fold p in Rp. rewrite Rn in Rp.
  assert (0 < FR w)%R as Hw0.
  { rewrite fle_R in Hw by done. change (FR f_zero) with 0%R in Hw.
    revert Hw. case Rle_bool_spec; [discriminate|done]. }
  assert (valid (fadd o p)) as Vu by (by apply fadd_valid).
  constructor; unfold linear_upper; fold p; unfold int32_max; try done.
Qed.

(** what the product is worth *)
Lemma linear_p n w o : linear_setup n w o ->
  (Rabs (FR (fmul (f_of_int n) w) - IZR n * FR w) <= FR w * bpow radix2 (-22))%R.
Proof.
  intros [[Hn Hn2] (Vw & Fw & Hw) _ (_ & _ & ->) _]. unfold int32_max in Hn2.
  eapply Rle_trans; [by apply rel_mul|].
  assert (0 <= IZR n)%R by (apply IZR_le; lia).
  rewrite Rabs_pos_eq by (apply Rmult_le_pos; lra).
  rewrite (Rmult_comm (IZR n)), Rmult_assoc. apply Rmult_le_compat_l; [lra|].
  change (bpow radix2 (-22)) with (bpow radix2 (31 + -53)). rewrite bpow_plus. apply Rmult_le_compat_r; [apply bpow_ge_0|].
  change (bpow radix2 31) with (IZR (2 ^ 31)). apply IZR_le. lia.
Qed.

(** a sample between the offset and the computed upper bound *)
Lemma linear_middle n w o v : linear_setup n w o -> valid v -> is_nan v = false ->
  flt v o = false -> fle (linear_upper n w o) v = false ->
  fin v = true /\ (0 <= FR v - FR o <= FR (fmul (f_of_int n) w))%R /\
  let d := rnd (FR v - FR o) in let q := rnd (d / FR w) in
  (0 <= d <= FR (fmul (f_of_int n) w))%R /\ (0 <= q <= IZR n + / 2)%R /\ 0 <= Zfloor q <= n /\
  linear_index n w o v = Ok (1 + Zfloor q).
Proof.
  intros LS Vv Env Elo0 Eup0. pose proof (linear_p n w o LS) as Hp.
  destruct LS as [[Hn Hn2] (Vw & Fw & Hw) (Vo & Fo) (Vp & Fp & Rp) (Vu & Fu & Ru)].
  unfold int32_max in Hn2. unfold linear_index. cbn zeta. rewrite Elo0, Env, Eup0. cbn [orb].
  assert (fin v = true) as Fv.
  { destruct v as [?|s| |]; try done. exfalso. destruct s.
    - destruct o as [?|[]| |]; discriminate.
    - destruct (linear_upper n w o) as [?|[]| |]; discriminate. }
  assert (FR o <= FR v)%R as Elo.
  { rewrite flt_R in Elo0 by done. revert Elo0. case Rlt_bool_spec; [discriminate|done]. }
  assert (FR v < FR (linear_upper n w o))%R as Eup.
  { rewrite fle_R in Eup0 by done. revert Eup0. case Rle_bool_spec; [discriminate|done]. }
  set (p := fmul (f_of_int n) w) in *.
  assert (FR v <= FR o + FR p)%R as Hvp.
  { apply Rnot_lt_le. intros C. apply (Rlt_not_le _ _ Eup). rewrite Ru.
    rewrite <- (rnd_id (FR v)) by (by apply FR_format). apply rnd_le. lra. }
  assert (0 <= rnd (FR v - FR o) <= FR p)%R as [Hd0 Hdp].
  { split.
    - rewrite <- (rnd_id 0%R) by apply generic_format_0. apply rnd_le. lra.
    - rewrite <- (rnd_id (FR p)) by (by apply FR_format). apply rnd_le. lra. }
  split; [done|]. split; [lra|]. cbn zeta.
  assert (FR p < bpow radix2 1024)%R as Hpb.
  { destruct (to_bin p Vp) as [b Eb]. rewrite <- Eb, FR_B. eapply Rle_lt_trans; [apply Rle_abs|].
    apply (abs_B2R_lt_emax 53 1024 b). }
  destruct (fsub_small v o) as [Fd Rd]; [done..| |].
  { rewrite Rabs_pos_eq by done. lra. }
  set (d := fsub v o) in *. assert (valid d) as Vd by (by apply fsub_valid).
  assert (FR p / FR w <= IZR n + / 2)%R as Hq.
  { apply Rmult_le_reg_r with (FR w); [done|]. unfold Rdiv. rewrite Rmult_assoc, Rinv_l, Rmult_1_r by lra.
    apply Rabs_le_inv in Hp as [_ Hp].
    assert (bpow radix2 (-22) <= / 2)%R.
    { change (/ 2)%R with (bpow radix2 (-1)). apply bpow_le. lia. }
    assert (FR w * bpow radix2 (-22) <= FR w * / 2)%R by (apply Rmult_le_compat_l; lra). lra. }
  rewrite <- Rd in Hd0, Hdp. rewrite <- Rd.
  assert (0 <= rnd (FR d / FR w) <= IZR n + / 2)%R as [Hq0 Hq1].
  { split.
    - rewrite <- (rnd_id 0%R) by apply generic_format_0. apply rnd_le.
      apply Rmult_le_pos; [done|]. left. by apply Rinv_0_lt_compat.
    - rewrite <- (rnd_id (IZR n + / 2)%R) by (apply format_half; lia). apply rnd_le.
      eapply Rle_trans; [|exact Hq]. apply Rmult_le_compat_r; [left; by apply Rinv_0_lt_compat|]. lra. }
  destruct (fdiv_small d w) as [Fq Rq]; [done..|lra| |].
  { rewrite Rabs_pos_eq by done. eapply Rle_lt_trans; [exact Hq1|].
    apply Rle_lt_trans with (IZR (2 ^ 32)).
    - apply Rle_trans with (IZR (n + 1)); [rewrite plus_IZR; lra|]. apply IZR_le. lia.
    - rewrite (IZR_Zpower radix2) by lia. apply bpow_lt. lia. }
  assert (0 <= Zfloor (rnd (FR d / FR w)) <= n) as Ht.
  { split; [by apply Zfloor_lub|].
    apply Zlt_succ_le. apply lt_IZR. unfold Z.succ. rewrite plus_IZR.
    eapply Rle_lt_trans; [apply Zfloor_lb|]. lra. }
  split_and!; try done; try lia.
  unfold f_to_int. rewrite (f_trunc_spec _ Fq), Rq, Ztrunc_floor by done.
  unfold in_int32. rewrite (proj2 (Z.leb_le _ _)), (proj2 (Z.leb_le _ _)) by (unfold int32_min, int32_max; lia).
  cbn [andb obind]. rewrite add32_fits by (unfold int32_min, int32_max; lia). done.
Qed.

(** ** Order *)
Lemma linear_add n w o : linear_setup n w o -> add32 n 1 = Ok (n + 1).
Proof. intros [[Hn Hn2] _ _ _ _]. unfold int32_max in Hn2. by rewrite add32_fits by (unfold int32_min, int32_max; lia). Qed.

Lemma linear_monotone n w o v v' : linear_setup n w o -> valid v -> valid v' -> fle v v' = true ->
  exists i i', linear_index n w o v = Ok i /\ linear_index n w o v' = Ok i' /\ i <= i'.
Proof.
  intros LS Vv Vv' Hle. pose proof (linear_add n w o LS) as Eadd. destruct (fle_nan _ _ Hle) as [Nv Nv'].
  pose proof (linear_middle n w o v LS Vv Nv) as M. pose proof (linear_middle n w o v' LS Vv' Nv') as M'.
  assert (1 <= n) by (by destruct LS as [[? ?] _ _ _ _]).
  assert (0 < FR w)%R by (by destruct LS as [_ (_ & _ & ?) _ _ _]).
  destruct (flt v' o) eqn:L'.
  { assert (flt v o = true) as L by (by eapply fle_flt_trans). exists 0, 0. unfold linear_index. cbn zeta. by rewrite L, L'. }
  assert (0 <= 0) by lia.
  assert (forall i', linear_index n w o v' = Ok i' -> 0 <= i' -> flt v o = true ->
    exists i i', linear_index n w o v = Ok i /\ linear_index n w o v' = Ok i' /\ i <= i') as Low.
  { intros i' E Hi L. exists 0, i'. split; [|done]. unfold linear_index. cbn zeta. by rewrite L. }
  destruct (fle (linear_upper n w o) v') eqn:U'.
  - assert (linear_index n w o v' = Ok (n + 1)) as E'.
    { unfold linear_index. cbn zeta. by rewrite L', Nv', U', Eadd. }
    destruct (flt v o) eqn:L; [apply (Low (n + 1)); [done|lia|done]|].
    destruct (fle (linear_upper n w o) v) eqn:U.
    + exists (n + 1), (n + 1). split; [|done]. unfold linear_index. cbn zeta. by rewrite L, Nv, U, Eadd.
    + destruct (M eq_refl eq_refl) as (_ & _ & M1). cbn zeta in M1. destruct M1 as (_ & _ & M1 & ->).
      eexists _, _. split; [done|]. split; [done|]. lia.
  - destruct (M' eq_refl eq_refl) as (Fv' & _ & M1'). cbn zeta in M1'. destruct M1' as (_ & _ & M1' & E').
    destruct (flt v o) eqn:L; [eapply Low; [done|lia|done]|].
    destruct (fle (linear_upper n w o) v) eqn:U.
    { rewrite (fle_trans _ _ _ U Hle) in U'. discriminate. }
    destruct (M eq_refl eq_refl) as (Fv & _ & M1). cbn zeta in M1. destruct M1 as (_ & _ & M1 & E).
    eexists _, _. split; [done|]. split; [done|]. apply Z.add_le_mono_l, Zfloor_le, rnd_le.
    apply Rmult_le_compat_r; [left; by apply Rinv_0_lt_compat|]. apply rnd_le.
    rewrite fle_R in Hle by done. revert Hle. case Rle_bool_spec; [|discriminate]. lra.
Qed.

(** ** Within a millionth of a width *)
Lemma real_FR x : real x = FR x.
Proof.
  destruct x as [?|?| |s m e]; try done. unfold real, FR. cbn [SF2R]. unfold F2R. cbn [Fnum Fexp].
  rewrite bpow_powerRZ. change (IZR radix2) with 2%R. f_equal.
  destruct s; cbn [cond_Zopp]; [rewrite opp_IZR|]; ring.
Qed.
Lemma pow_bpow k : (/ 2 ^ k)%R = bpow radix2 (- Z.of_nat k).
Proof. rewrite bpow_opp. f_equal. rewrite bpow_powerRZ. change (IZR radix2) with 2%R. by rewrite <- pow_powerRZ. Qed.

Lemma linear_near n w o v : linear_setup n w o -> valid v -> fin v = true ->
  exists i, linear_index n w o v = Ok i /\ in_linear_bucket (linear_slack n (real w) (real o) i) n (real w) (real o) i (real v).
Proof.
  intros LS Vv Fv. pose proof (linear_add n w o LS) as Eadd. pose proof (fin_not_nan v Fv) as Nv.
  rewrite !real_FR. pose proof (linear_p n w o LS) as Hp. apply Rabs_le_inv in Hp as [Hp1 Hp2].
  pose proof (linear_middle n w o v LS Vv Nv) as M.
  destruct LS as [[Hn Hn2] (Vw & Fw & Hw) (Vo & Fo) (Vp & Fp & Rp) (Vu & Fu & Ru)]. unfold int32_max in Hn2.
  set (p := fmul (f_of_int n) w) in *.
  assert (forall i, linear_slack n (FR w) (FR o) i =
    (FR w * bpow radix2 (-20) + (if Z.eq_dec i (n + 1)%Z then Rabs (FR o) * bpow radix2 (-53) else 0))%R) as Sl.
  { intros i. unfold linear_slack, Rdiv. by rewrite !pow_bpow. }
  assert (bpow radix2 (-20) = 4 * bpow radix2 (-22))%R as P20.
  { change (bpow radix2 (-20)) with (bpow radix2 (2 + -22)). by rewrite bpow_plus. }
  assert (bpow radix2 (-21) = 2 * bpow radix2 (-22))%R as P21.
  { change (bpow radix2 (-21)) with (bpow radix2 (1 + -22)). by rewrite bpow_plus. }
  pose proof (bpow_gt_0 radix2 (-22)) as B22. pose proof (bpow_gt_0 radix2 (-53)) as B53.
  assert (bpow radix2 31 * bpow radix2 (-53) = bpow radix2 (-22))%R as P31 by (by rewrite <- bpow_plus).
  assert (IZR n + 1 <= bpow radix2 31)%R as Hnb.
  { change (bpow radix2 31) with (IZR (2 ^ 31)). rewrite <- plus_IZR. apply IZR_le. lia. }
  assert (1 <= IZR n)%R as Hn1 by (apply IZR_le; lia).
  assert (0 < FR w * bpow radix2 (-22))%R as Hwb by (by apply Rmult_lt_0_compat).
  assert (bpow radix2 (-22) <= / 2)%R as Bh.
  { change (/ 2)%R with (bpow radix2 (-1)). apply bpow_le. lia. }
  assert (FR p <= FR w * (IZR n + / 2))%R as Hpn.
  { assert (FR w * bpow radix2 (-22) <= FR w * / 2)%R by (apply Rmult_le_compat_l; lra). lra. }
  assert (FR p * bpow radix2 (-53) <= FR w * bpow radix2 (-22))%R as Hp53.
  { rewrite <- P31, <- Rmult_assoc. apply Rmult_le_compat_r; [lra|]. eapply Rle_trans; [exact Hpn|].
    apply Rmult_le_compat_l; lra. }
  assert (0 <= FR p)%R as Hp0.
  { assert (FR w * bpow radix2 (-22) <= FR w * 1)%R by (apply Rmult_le_compat_l; lra).
    assert (FR w * 1 <= IZR n * FR w)%R by (rewrite Rmult_comm; apply Rmult_le_compat_r; lra). lra. }
  destruct (flt v o) eqn:L.
  { exists 0. split; [unfold linear_index; cbn zeta; by rewrite L|]. left. split; [done|].
    rewrite flt_R in L by done. revert L. by case Rlt_bool_spec. }
  assert (FR o <= FR v)%R as HL. { rewrite flt_R in L by done. revert L. case Rlt_bool_spec; [discriminate|done]. }
  destruct (fle (linear_upper n w o) v) eqn:U.
  { exists (n + 1). split; [unfold linear_index; cbn zeta; by rewrite L, Nv, U|]. right. right. split; [done|]. split; [done|].
    rewrite Sl. destruct (Z.eq_dec (n + 1) (n + 1)) as [_|C]; [|done].
    rewrite fle_R in U by done. revert U. case Rle_bool_spec; [|discriminate]. intros U _.
    pose proof (rel_add o p Vo Vp) as E. rewrite <- Ru in E. apply Rabs_le_inv in E as [E _].
    assert (Rabs (FR o + FR p) * bpow radix2 (-53) <= Rabs (FR o) * bpow radix2 (-53) + FR w * bpow radix2 (-22))%R as E2.
    { eapply Rle_trans; [apply Rmult_le_compat_r; [lra|apply Rabs_triang]|].
      rewrite Rmult_plus_distr_r, (Rabs_pos_eq (FR p)) by done. lra. }
    rewrite P20. lra. }
  destruct (M eq_refl eq_refl) as (_ & Hvo & M1). cbn zeta in M1. destruct M1 as (Hd & Hq & Hk & E).
  set (d := rnd (FR v - FR o)) in *. set (q := rnd (d / FR w)) in *. set (k := Zfloor q) in *.
  exists (1 + k). split; [done|].
  pose proof (rel_sub v o Vv Vo) as E1. fold d in E1. rewrite (Rabs_pos_eq (FR v - FR o)) in E1 by lra.
  assert ((FR v - FR o) * bpow radix2 (-53) <= FR w * bpow radix2 (-22))%R as E1'.
  { eapply Rle_trans; [|exact Hp53]. apply Rmult_le_compat_r; lra. }
  apply Rabs_le_inv in E1 as [E1a E1b].
  assert (0 < / FR w)%R as Hwi by (by apply Rinv_0_lt_compat).
  assert (0 <= d / FR w <= IZR n + / 2)%R as [X0 X1].
  { split; [apply Rmult_le_pos; lra|]. apply Rmult_le_reg_r with (FR w); [done|].
    unfold Rdiv. rewrite Rmult_assoc, Rinv_l, Rmult_1_r by lra. lra. }
  pose proof (rel_abs (d / FR w)) as E2. fold q in E2. rewrite (Rabs_pos_eq (d / FR w)) in E2 by done.
  assert (d / FR w * bpow radix2 (-53) <= bpow radix2 (-22))%R as E2'.
  { rewrite <- P31. apply Rmult_le_compat_r; lra. }
  assert (bpow radix2 (-1075) <= bpow radix2 (-22))%R as E2'' by (apply bpow_le; lia).
  apply Rabs_le_inv in E2 as [E2a E2b].
  assert (FR w * (d / FR w) = d)%R as Edw by (field; lra).
  pose proof (Zfloor_lb q) as K1. pose proof (Zfloor_ub q) as K2. fold k in K1, K2.
  assert (IZR k * FR w <= d + FR w * bpow radix2 (-21))%R as LO.
  { rewrite <- Edw, <- Rmult_plus_distr_l, (Rmult_comm (IZR k)). apply Rmult_le_compat_l; lra. }
  assert (d < (IZR k + 1) * FR w + FR w * bpow radix2 (-21))%R as HI.
  { rewrite <- Edw, (Rmult_comm (IZR k + 1)), <- Rmult_plus_distr_l. apply Rmult_lt_compat_l; lra. }
  rewrite P21 in LO, HI. rewrite Sl, P20.
  destruct (Z.eq_dec (1 + k) (n + 1)) as [Ek|Ek].
  - assert (k = n) as -> by lia. right. right. split; [done|]. split; [done|].
    pose proof (Rmult_le_pos _ _ (Rabs_pos (FR o)) (Rlt_le _ _ B53)). lra.
  - right. left. split; [lia|]. split; [done|]. replace (1 + k - 1) with k by lia. rewrite (plus_IZR 1 k). lra.
Qed.

(** ** Exactly, on a grid *)
Lemma small_format m e : -1074 <= e -> Z.abs m < 2 ^ 53 -> generic_format radix2 fx (IZR m * bpow radix2 e)%R.
Proof.
  intros He Hm. apply generic_format_FLT.
  apply (FLT_spec radix2 (-1074) 53 _ (Float radix2 m e)); cbn [Fnum Fexp]; [done|cbn; lia|done].
Qed.

(** Rounding a quotient of whole numbers below 2^53 keeps its integer part. *)
Lemma floor_quotient m a : 0 <= m < 2 ^ 53 -> 1 <= a -> Zfloor (rnd (IZR m / IZR a)) = m / a.
Proof.
  intros Hm Ha. set (k := m / a). assert (0 <= k <= m) as Hk.
  { split; [apply Z.div_pos; lia|]. apply Z.div_le_upper_bound; nia. }
  assert (a * k <= m < a * (k + 1)) as [K1 K2].
  { pose proof (Z.div_mod m a ltac:(lia)). pose proof (Z.mod_pos_bound m a ltac:(lia)). unfold k. lia. }
  assert (1 <= IZR a)%R as Ra by (apply IZR_le; lia). assert (0 < / IZR a)%R by (apply Rinv_0_lt_compat; lra).
  assert (0 <= IZR m)%R as Rm by (apply IZR_le; lia).
  set (x := (IZR m / IZR a)%R). assert (IZR a * x = IZR m)%R as Ex by (unfold x; field; lra).
  assert (0 <= x)%R as X0 by (apply Rmult_le_pos; lra).
  apply Zfloor_imp. split.
  - rewrite <- (rnd_id (IZR k)) by (apply format_int; lia). apply rnd_le.
    apply Rmult_le_reg_l with (IZR a); [lra|]. rewrite Ex, <- mult_IZR. apply IZR_le. done.
  - apply Rnot_le_lt. intros C. rewrite plus_IZR in C.
    assert (0 <= IZR k)%R as Rk by (apply IZR_le; lia).
    assert (/ 2 < x)%R as Xh.
    { apply Rnot_le_lt. intros Hx. apply rnd_le in Hx. rewrite (rnd_id (/ 2)) in Hx.
      - lra.
      - replace (/ 2)%R with (IZR 0 + / 2)%R by lra. by apply format_half. }
    assert (bpow radix2 (-1022) <= / 2)%R. { change (/ 2)%R with (bpow radix2 (-1)). apply bpow_le. lia. }
    pose proof (half_ulp x) as U. pose proof (ulp_big x) as B. rewrite Rabs_pos_eq in B by done. specialize (B ltac:(lra)).
    apply Rabs_le_inv in U as [_ U].
    assert (rnd x - x <= x * bpow radix2 (-53))%R as U'.
    { change (bpow radix2 (-53)) with (bpow radix2 (-1 + -52)). rewrite bpow_plus. change (bpow radix2 (-1)) with (/ 2)%R. lra. }
    assert (IZR a * (IZR k + 1) - IZR m <= IZR m * bpow radix2 (-53))%R as V.
    { rewrite <- Ex at 1. rewrite <- Rmult_minus_distr_l. rewrite <- Ex, Rmult_assoc. apply Rmult_le_compat_l; lra. }
    assert (1 <= IZR a * (IZR k + 1) - IZR m)%R as W.
    { rewrite <- plus_IZR, <- mult_IZR, <- minus_IZR. apply IZR_le. lia. }
    assert (IZR m * bpow radix2 (-53) < 1)%R; [|lra].
    replace 1%R with (bpow radix2 53 * bpow radix2 (-53))%R by (rewrite <- bpow_plus; done).
    apply Rmult_lt_compat_r; [apply bpow_gt_0|]. change (bpow radix2 53) with (IZR (2 ^ 53)). apply IZR_lt. lia.
Qed.

Lemma linear_exact n w o v : linear_setup n w o -> valid v -> fin v = true -> on_one_grid n w o v ->
  exists i, linear_index n w o v = Ok i /\ in_linear_bucket 0 n (real w) (real o) i (real v).
Proof.
  intros LS Vv Fv (e & a & b & c & He & Ew & Eo & Ev & Hs). pose proof (linear_add n w o LS) as Eadd.
  pose proof (fin_not_nan v Fv) as Nv. pose proof (linear_middle n w o v LS Vv Nv) as M.
  rewrite Ew, Eo, Ev. rewrite real_FR in Ew, Eo, Ev.
  destruct LS as [[Hn Hn2] (Vw & Fw & Hw) (Vo & Fo) (Vp & Fp & Rp) (Vu & Fu & Ru)]. unfold int32_max in Hn2.
  assert (powerRZ 2 e = bpow radix2 e) as P by (rewrite bpow_powerRZ; done). rewrite P in *.
  set (u := bpow radix2 e) in *. assert (0 < u)%R as Hu by apply bpow_gt_0. assert (/ u <> 0)%R by (apply Rinv_neq_0_compat; lra).
  assert (1 <= a) as Ha.
  { assert (0 < IZR a)%R as Ha0; [|apply lt_IZR in Ha0; lia]. apply Rmult_lt_reg_r with u; [done|]. rewrite Rmult_0_l. lra. }
  set (p := fmul (f_of_int n) w) in *.
  assert (FR p = IZR (n * a) * u)%R as Ep.
  { rewrite Rp, Ew. replace (IZR n * (IZR a * u))%R with (IZR (n * a) * u)%R by (rewrite mult_IZR; ring).
    apply rnd_id, small_format; [done|]. nia. }
  assert (FR (linear_upper n w o) = IZR (b + n * a) * u)%R as Eu.
  { rewrite Ru, Ep, Eo. replace (IZR b * u + IZR (n * a) * u)%R with (IZR (b + n * a) * u)%R by (rewrite plus_IZR; ring).
    apply rnd_id, small_format; [done|]. nia. }
  assert (forall x y, (IZR x * u < IZR y * u)%R <-> x < y) as LT.
  { intros x y. split; intros Hxy.
    - apply lt_IZR. by apply Rmult_lt_reg_r with u.
    - apply Rmult_lt_compat_r; [done|]. by apply IZR_lt. }
  assert (forall x y, (IZR x * u <= IZR y * u)%R <-> x <= y) as LE.
  { intros x y. split; intros Hxy.
    - apply le_IZR. by apply Rmult_le_reg_r with u.
    - apply Rmult_le_compat_r; [lra|]. by apply IZR_le. }
  assert (forall k, IZR b * u + IZR k * (IZR a * u) = IZR (b + k * a) * u)%R as LIN.
  { intros k. rewrite plus_IZR, mult_IZR. ring. }
  unfold in_linear_bucket.
  destruct (flt v o) eqn:L.
  { exists 0. split; [unfold linear_index; cbn zeta; by rewrite L|]. left. split; [done|].
    rewrite flt_R in L by done. revert L. case Rlt_bool_spec; [|discriminate]. rewrite Ev, Eo. done. }
  assert (b <= c) as HL.
  { rewrite flt_R in L by done. revert L. case Rlt_bool_spec; [discriminate|]. rewrite Ev, Eo. intros H1%LE _. done. }
  destruct (fle (linear_upper n w o) v) eqn:U.
  { exists (n + 1). split; [unfold linear_index; cbn zeta; by rewrite L, Nv, U|]. right. right. split; [done|].
    rewrite LIN, Rminus_0_r, !LE. split; [done|].
    rewrite fle_R in U by done. revert U. case Rle_bool_spec; [|discriminate]. rewrite Eu, Ev. intros U%LE _. lia. }
  assert (c < b + n * a) as HU.
  { rewrite fle_R in U by done. revert U. case Rle_bool_spec; [discriminate|]. rewrite Eu, Ev. intros U%LT _. done. }
  destruct (M eq_refl eq_refl) as (_ & _ & M1). cbn zeta in M1. destruct M1 as (_ & _ & _ & E).
  assert (rnd (FR v - FR o) = IZR (c - b) * u)%R as Ed.
  { rewrite Ev, Eo. replace (IZR c * u - IZR b * u)%R with (IZR (c - b) * u)%R by (rewrite minus_IZR; ring).
    apply rnd_id, small_format; [done|]. nia. }
  assert (IZR (c - b) * u / FR w = IZR (c - b) / IZR a)%R as Eq.
  { rewrite Ew. field. split; first [lra|apply not_0_IZR; lia]. }
  rewrite Ed, Eq, floor_quotient in E; [|nia|done].
  set (k := (c - b) / a) in *. assert (a * k <= c - b < a * (k + 1)) as [K1 K2].
  { pose proof (Z.div_mod (c - b) a ltac:(lia)). pose proof (Z.mod_pos_bound (c - b) a ltac:(lia)). unfold k. lia. }
  exists (1 + k). split; [done|]. right. left. assert (0 <= k < n) by nia. split; [lia|].
  rewrite !LIN, Rminus_0_r, Rplus_0_r, !LE, LT. split; [done|]. nia.
Qed.

(** Buckets do not overlap. *)
Lemma linear_bucket_unique n w o v i j : (0 < w)%R -> 1 <= n -> in_linear_bucket 0 n w o i v -> in_linear_bucket 0 n w o j v -> i = j.
Proof.
  intros Hw Hn.
  assert (forall a b, (o + IZR a * w <= v)%R -> (v < o + IZR b * w)%R -> a < b) as X.
  { intros a b H1 H2. apply lt_IZR. apply Rmult_lt_reg_r with w; [done|]. lra. }
  unfold in_linear_bucket. rewrite ?Rminus_0_r, ?Rplus_0_r.
  intros [[-> H1]|[(R1 & O1 & H1)|(-> & O1 & H1)]] [[-> H2]|[(R2 & O2 & H2)|(-> & O2 & H2)]];
    rewrite ?Rminus_0_r, ?Rplus_0_r in *; try done; try (exfalso; lra).
  - assert (i - 1 < j) by (apply X; lra). assert (j - 1 < i) by (apply X; lra). lia.
  - assert (n < i) by (apply X; lra). lia.
  - assert (n < j) by (apply X; lra). lia.
Qed.

(** ** AddSample *)
Section add.
Context (log2 : double -> double) (d : distribution) (l : list double) (n : Z) (w o : double).
Context (Hb : built log2 d l) (Hc : d_count d < int64_max) (Ho : d_option d = BLinear n w o).
Context (Vw : is_double w) (Vo : is_double o) (Hu : finite (linear_upper n w o)).

Lemma add_setup : linear_setup n w o.
Proof using All.
  pose proof (built_option _ _ _ Hb) as Hopt. rewrite Ho in Hopt. destruct Hopt as (Hn & Hn2 & Hw).
  apply linear_set; try done. by apply fin_finite.
Qed.
Lemma add_index v i : linear_index n w o v = Ok i -> 0 <= i <= n + 1 ->
  exists d', AddSample log2 v d = Ok (SOk, d') /\ counted_in i d d'.
Proof using All.
  intros E Hi. destruct (add_sample_ok log2 d l v (Z.to_nat i)) as (d' & Ha & Hr); [done|done|by rewrite Ho| | |].
  - rewrite Ho. cbn [sample_index]. rewrite E. f_equal. lia.
  - rewrite Ho. cbn [layout_buckets]. lia.
  - exists d'. split; [done|]. split; [|done].
    destruct (built_inv _ _ _ Hb) as (_ & _ & _ & H4). rewrite Ho in H4. cbn [layout_buckets] in H4. lia.
Qed.
Lemma bucket_range eps i v : in_linear_bucket eps n (real w) (real o) i v -> 0 <= i <= n + 1.
Proof using All. pose proof add_setup as [[? ?] _ _ _ _]. intros [[-> _]|[[? _]|[-> _]]]; lia. Qed.
Lemma index_range v i : is_double v -> linear_index n w o v = Ok i -> 0 <= i <= n + 1.
Proof using All.
  intros Vv E. pose proof add_setup as LS. destruct LS as [[Hn Hn2] (Vw' & Fw & Hw) _ _ _].
  destruct (linear_index_ok n w o v) as (i' & E' & Hi'); try done.
  - pose proof (built_option _ _ _ Hb) as Hopt. rewrite Ho in Hopt. by destruct Hopt as (_ & _ & ?).
  - by apply fin_finite.
  - rewrite E in E'. injection E' as ->. lia.
Qed.

Lemma add_near v : is_double v -> finite v ->
  exists d' i, AddSample log2 v d = Ok (SOk, d') /\ counted_in i d d' /\
    in_linear_bucket (linear_slack n (real w) (real o) i) n (real w) (real o) i (real v).
Proof using All.
  intros Vv Fv%fin_finite. destruct (linear_near n w o v add_setup Vv Fv) as (i & E & Hi).
  destruct (add_index v i E (bucket_range _ _ _ Hi)) as (d' & H1 & H2). by exists d', i.
Qed.
Lemma add_exact v : is_double v -> finite v -> on_one_grid n w o v ->
  exists d' i, AddSample log2 v d = Ok (SOk, d') /\ counted_in i d d' /\
    forall j, in_linear_bucket 0 n (real w) (real o) j (real v) <-> j = i.
Proof using All.
  intros Vv Fv%fin_finite G. destruct (linear_exact n w o v add_setup Vv Fv G) as (i & E & Hi).
  destruct (add_index v i E (bucket_range _ _ _ Hi)) as (d' & H1 & H2). exists d', i. split_and!; [done..|].
  intros j. split; [|by intros ->]. pose proof add_setup as [[Hn Hn2] (Vw' & Fw & Hw) _ _ _]. intros Hj.
  eapply linear_bucket_unique; [|done|exact Hj|exact Hi]. by rewrite real_FR.
Qed.
Lemma add_order v v' : is_double v -> is_double v' -> fle v v' = true ->
  exists d1 d2 i i', AddSample log2 v d = Ok (SOk, d1) /\ counted_in i d d1 /\
    AddSample log2 v' d = Ok (SOk, d2) /\ counted_in i' d d2 /\ i <= i'.
Proof using All.
  intros Vv Vv' H. destruct (linear_monotone n w o v v' add_setup Vv Vv' H) as (i & i' & E & E' & Hi).
  destruct (add_index v i E (index_range _ _ Vv E)) as (d1 & H1 & H2).
  destruct (add_index v' i' E' (index_range _ _ Vv' E')) as (d2 & H3 & H4). by exists d1, d2, i, i'.
Qed.
Lemma add_special v i : (v = S754_nan \/ v = S754_infinity true) /\ i = 0 \/ v = S754_infinity false /\ i = n + 1 ->
  exists d', AddSample log2 v d = Ok (SOk, d') /\ counted_in i d d'.
Proof using All.
  intros H. pose proof (linear_add n w o add_setup) as Eadd. pose proof add_setup as [[Hn Hn2] _ [_ Fo] _ (_ & Fu & _)].
  apply add_index; [|destruct H as [[_ ->]|[_ ->]]; lia]. unfold linear_index. cbn zeta.
  destruct H as [[[-> | ->] ->]|[-> ->]].
  - by rewrite orb_true_r.
  - by destruct o as [?|?| |[] ? ?].
  - assert (flt (S754_infinity false) o = false) as -> by (by destruct o as [?|?| |[] ? ?]).
    assert (fle (linear_upper n w o) (S754_infinity false) = true) as -> by (by destruct (linear_upper n w o) as [?|?| |[] ? ?]).
    exact Eadd.
Qed.
End add.

(** ** Not exact in general: 0.9 with buckets of width 0.1 *)
Definition f_tenth : double := S754_finite false 7205759403792794 (-56).
Definition f_nine_tenths : double := S754_finite false 8106479329266893 (-53).
Lemma linear_inexact : exists d, InitLinear 10 f_tenth f_zero empty_distribution = Ok (SOk, d) /\
  forall log2, exists d', AddSample log2 f_nine_tenths d = Ok (SOk, d') /\ counted_in 10 d d' /\
    in_linear_bucket 0 10 (real f_tenth) (real f_zero) 9 (real f_nine_tenths) /\
    ~ in_linear_bucket 0 10 (real f_tenth) (real f_zero) 10 (real f_nine_tenths).
Proof.
  eexists. split; [vm_compute; reflexivity|]. intros log2. eexists. split; [vm_compute; reflexivity|].
  split; [split; [vm_compute; done|reflexivity]|].
  assert (in_linear_bucket 0 10 (real f_tenth) (real f_zero) 9 (real f_nine_tenths) /\ (0 < real f_tenth)%R) as [IN W].
  { rewrite !real_FR. unfold FR, f_tenth, f_nine_tenths, f_zero. cbn [SF2R]. unfold F2R. cbn [Fnum Fexp cond_Zopp].
    change (bpow radix2 (-53)) with (bpow radix2 (3 + -56)). rewrite bpow_plus. change (bpow radix2 3) with 8%R.
    pose proof (bpow_gt_0 radix2 (-56)). set (u := bpow radix2 (-56)) in *.
    split; [|lra]. right. left. split; [lia|]. change (9 - 1) with 8. split; [nra|]. split; nra. }
  split; [exact IN|]. intros IN'. assert (9 = 10) as C; [|done].
  eapply linear_bucket_unique; [exact W| |exact IN|exact IN']. lia.
Qed.
