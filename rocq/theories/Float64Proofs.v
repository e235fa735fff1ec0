(** Real-number facts about the binary64 operations of Distribution.v, through Flocq. *)
From Coq Require Import Reals Lra.
From Flocq Require Import Core.Core IEEE754.BinarySingleNaN.
From Flocq Require Import Calc.Round.
From Verif Require Import Proto Distribution DistributionSpec DistributionProofs.
Open Scope Z_scope.

#[local] Instance Hprec : Prec_gt_0 53. Proof. done. Qed.
#[local] Instance Hmax : Prec_lt_emax 53 1024. Proof. done. Qed.
Notation bin := (binary_float 53 1024).
Notation fx := (SpecFloat.fexp 53 1024).
Notation rnd := (round radix2 (SpecFloat.fexp 53 1024) (round_mode mode_NE)).

Definition FR (x : double) : R := SF2R radix2 x.
Definition fin (x : double) : bool := is_finite_SF x.
Definition valid (x : double) : Prop := SpecFloat.valid_binary 53 1024 x = true.

Lemma to_bin x : valid x -> exists b : bin, B2SF b = x.
Proof. intros H. exists (SF2B x H). apply B2SF_SF2B. Qed.

Lemma round_ne_equiv s m l : round_nearest_even m l = choice_mode mode_NE s m l.
Proof. destruct l as [|[]]; try reflexivity. cbn. unfold Round.cond_incr. by destruct (Z.even m). Qed.
Lemma round_aux_equiv sx mx ex lx :
  SpecFloat.binary_round_aux 53 1024 sx mx ex lx = BinarySingleNaN.binary_round_aux 53 1024 mode_NE sx mx ex lx.
Proof.
  unfold SpecFloat.binary_round_aux, BinarySingleNaN.binary_round_aux.
  destruct (shr_fexp _ _ _ _ _) as [mrs e]. by rewrite (round_ne_equiv sx).
Qed.
Lemma round_equiv s m e : SpecFloat.binary_round 53 1024 s m e = BinarySingleNaN.binary_round 53 1024 mode_NE s m e.
Proof.
  unfold SpecFloat.binary_round, BinarySingleNaN.binary_round, shl_align_fexp.
  destruct (shl_align _ _ _) as [mz ez]. apply round_aux_equiv.
Qed.
Lemma normalize_equiv m e z :
  SpecFloat.binary_normalize 53 1024 m e z = B2SF (BinarySingleNaN.binary_normalize 53 1024 _ _ mode_NE m e z).
Proof. destruct m; [done| |]; cbn; rewrite B2SF_SF2B; apply round_equiv. Qed.

Lemma fadd_B (x y : bin) : fadd (B2SF x) (B2SF y) = B2SF (Bplus mode_NE x y).
Proof.
  destruct x as [sx|sx| |sx mx ex Bx], y as [sy|sy| |sy my ey By]; try (cbn; by destruct (Bool.eqb _ _)); try done.
  unfold fadd. cbn [B2SF SFadd Bplus]. apply normalize_equiv.
Qed.
Lemma fsub_B (x y : bin) : fsub (B2SF x) (B2SF y) = B2SF (Bminus mode_NE x y).
Proof.
  destruct x as [sx|sx| |sx mx ex Bx], y as [sy|sy| |sy my ey By]; try (cbn; by destruct (Bool.eqb _ _)); try done.
  unfold fsub. cbn [B2SF SFsub Bminus]. unfold Zminus. rewrite <- cond_Zopp_negb. apply normalize_equiv.
Qed.
Lemma fmul_B (x y : bin) : fmul (B2SF x) (B2SF y) = B2SF (Bmult mode_NE x y).
Proof.
  destruct x as [sx|sx| |sx mx ex Bx], y as [sy|sy| |sy my ey By]; try done.
  unfold fmul. cbn [B2SF SFmul Bmult]. rewrite B2SF_SF2B. apply round_aux_equiv.
Qed.
Lemma fdiv_B (x y : bin) : fdiv (B2SF x) (B2SF y) = B2SF (Bdiv mode_NE x y).
Proof.
  destruct x as [sx|sx| |sx mx ex Bx], y as [sy|sy| |sy my ey By]; try done.
  unfold fdiv. cbn [B2SF SFdiv Bdiv]. rewrite B2SF_SF2B.
  destruct (SFdiv_core_binary _ _ _ _ _ _) as [[mz ez] lz]. apply round_aux_equiv.
Qed.
Lemma valid_B (x : bin) : valid (B2SF x).
Proof. apply valid_binary_B2SF. Qed.
Lemma fin_B (x : bin) : fin (B2SF x) = is_finite x.
Proof. apply is_finite_SF_B2SF. Qed.
Lemma FR_B (x : bin) : FR (B2SF x) = B2R x.
Proof. apply SF2R_B2SF. Qed.

Lemma overflow_not_fin s : is_finite_SF (binary_overflow 53 1024 mode_NE s) = false.
Proof. done. Qed.

Lemma fadd_valid x y : valid x -> valid y -> valid (fadd x y).
Proof. intros (a & <-)%to_bin (b & <-)%to_bin. rewrite fadd_B. apply valid_B. Qed.
Lemma fsub_valid x y : valid x -> valid y -> valid (fsub x y).
Proof. intros (a & <-)%to_bin (b & <-)%to_bin. rewrite fsub_B. apply valid_B. Qed.
Lemma fmul_valid x y : valid x -> valid y -> valid (fmul x y).
Proof. intros (a & <-)%to_bin (b & <-)%to_bin. rewrite fmul_B. apply valid_B. Qed.
Lemma fdiv_valid x y : valid x -> valid y -> valid (fdiv x y).
Proof. intros (a & <-)%to_bin (b & <-)%to_bin. rewrite fdiv_B. apply valid_B. Qed.

Lemma fadd_fin x y : valid x -> valid y -> fin (fadd x y) = true ->
  fin x = true /\ fin y = true /\ FR (fadd x y) = rnd (FR x + FR y)%R.
Proof.
  intros (a & <-)%to_bin (b & <-)%to_bin. rewrite fadd_B, !fin_B, !FR_B. intros H.
  assert (is_finite a = true /\ is_finite b = true) as [Fa Fb].
  { destruct a as [?|sa| |], b as [?|sb| |]; try discriminate; try done. cbn in H. destruct sa, sb; discriminate. }
  split; [done|]. split; [done|]. pose proof (Bplus_correct 53 1024 _ _ mode_NE a b Fa Fb) as C.
  destruct (Rlt_bool _ _); [by destruct C|]. destruct C as [C _].
  rewrite <- is_finite_SF_B2SF, C in H. discriminate.
Qed.
Lemma fsub_small x y : valid x -> valid y -> fin x = true -> fin y = true ->
  (Rabs (rnd (FR x - FR y)) < bpow radix2 1024)%R ->
  fin (fsub x y) = true /\ FR (fsub x y) = rnd (FR x - FR y)%R.
Proof.
  intros (a & <-)%to_bin (b & <-)%to_bin. rewrite fsub_B, !fin_B, !FR_B. intros Fa Fb H.
  pose proof (Bminus_correct 53 1024 _ _ mode_NE a b Fa Fb) as C.
  rewrite Rlt_bool_true in C by done. destruct C as (C1 & C2 & _). done.
Qed.
Lemma fmul_fin x y : valid x -> valid y -> fin x = true -> FR x <> 0%R -> fin (fmul x y) = true ->
  fin y = true /\ FR (fmul x y) = rnd (FR x * FR y)%R.
Proof.
  intros (a & <-)%to_bin (b & <-)%to_bin. rewrite fmul_B, !fin_B, !FR_B. intros Fa Na H.
  assert (is_finite b = true) as Fb.
  { destruct a as [?|sa| |], b as [?|sb| |]; try discriminate; try done. }
  split; [done|]. pose proof (Bmult_correct 53 1024 _ _ mode_NE a b) as C.
  destruct (Rlt_bool _ _); [by destruct C|].
  rewrite <- is_finite_SF_B2SF, C in H. discriminate.
Qed.
Lemma fdiv_small x y : valid x -> valid y -> fin x = true -> FR y <> 0%R ->
  (Rabs (rnd (FR x / FR y)) < bpow radix2 1024)%R ->
  fin (fdiv x y) = true /\ FR (fdiv x y) = rnd (FR x / FR y)%R.
Proof.
  intros (a & <-)%to_bin (b & <-)%to_bin. rewrite fdiv_B, !fin_B, !FR_B. intros Fa Nb H.
  pose proof (Bdiv_correct 53 1024 _ _ mode_NE a b Nb) as C.
  rewrite Rlt_bool_true in C by done. destruct C as (C1 & C2 & _). split; [congruence|done].
Qed.
Lemma fdiv_fin x y : valid x -> valid y -> fin x = true -> FR y <> 0%R -> fin (fdiv x y) = true ->
  FR (fdiv x y) = rnd (FR x / FR y)%R.
Proof.
  intros (a & <-)%to_bin (b & <-)%to_bin. rewrite fdiv_B, !fin_B, !FR_B. intros Fa Nb H.
  pose proof (Bdiv_correct 53 1024 _ _ mode_NE a b Nb) as C.
  destruct (Rlt_bool _ _); [by destruct C|].
  rewrite <- is_finite_SF_B2SF, C in H. discriminate.
Qed.
Lemma flt_R x y : valid x -> valid y -> fin x = true -> fin y = true -> flt x y = Rlt_bool (FR x) (FR y).
Proof.
  intros (a & <-)%to_bin (b & <-)%to_bin. rewrite !fin_B, !FR_B. intros Fa Fb.
  exact (Bltb_correct 53 1024 a b Fa Fb).
Qed.
Lemma fle_R x y : valid x -> valid y -> fin x = true -> fin y = true -> fle x y = Rle_bool (FR x) (FR y).
Proof.
  intros (a & <-)%to_bin (b & <-)%to_bin. rewrite !fin_B, !FR_B. intros Fa Fb.
  exact (Bleb_correct 53 1024 a b Fa Fb).
Qed.
Lemma FR_format x : valid x -> generic_format radix2 fx (FR x).
Proof. intros (a & <-)%to_bin. rewrite FR_B. apply generic_format_B2R. Qed.

#[local] Instance fx_valid : Valid_exp fx.
Proof. apply (fexp_correct 53 1024). done. Qed.
#[local] Instance rnd_valid : Valid_rnd (round_mode mode_NE).
Proof. apply valid_rnd_round_mode. Qed.
Lemma rnd_le x y : (x <= y)%R -> (rnd x <= rnd y)%R.
Proof. apply round_le; typeclasses eauto. Qed.
Lemma rnd_id x : generic_format radix2 fx x -> rnd x = x.
Proof. apply round_generic. typeclasses eauto. Qed.

Lemma format_int n : Z.abs n < 2 ^ 53 -> generic_format radix2 fx (IZR n).
Proof.
  intros H. apply generic_format_FLT. apply (FLT_spec radix2 (-1074) 53 _ (Float radix2 n 0)); cbn; try lia.
  unfold F2R. cbn. by rewrite Rmult_1_r.
Qed.
Lemma format_half n : Z.abs (2 * n + 1) < 2 ^ 53 -> generic_format radix2 fx (IZR n + / 2)%R.
Proof.
  intros H. apply generic_format_FLT. apply (FLT_spec radix2 (-1074) 53 _ (Float radix2 (2 * n + 1) (-1))); cbn; try lia.
  unfold F2R. cbn [Fnum Fexp]. change (bpow radix2 (-1)) with (/ 2)%R. rewrite plus_IZR, mult_IZR. lra.
Qed.

Lemma f_of_int_spec n : Z.abs n < 2 ^ 53 -> valid (f_of_int n) /\ fin (f_of_int n) = true /\ FR (f_of_int n) = IZR n.
Proof.
  intros H. unfold f_of_int. rewrite normalize_equiv. split; [apply valid_B|]. rewrite fin_B, FR_B.
  pose proof (binary_normalize_correct 53 1024 _ _ mode_NE n 0 false) as C. cbn zeta in C.
  assert (F2R (Float radix2 n 0) = IZR n) as E by (unfold F2R; cbn; by rewrite Rmult_1_r).
  rewrite E, (rnd_id (IZR n)) in C by (by apply format_int).
  rewrite Rlt_bool_true in C.
  - destruct C as (C1 & C2 & _). done.
  - rewrite <- abs_IZR. apply Rlt_le_trans with (IZR (2 ^ 53)); [by apply IZR_lt|].
    rewrite (IZR_Zpower radix2) by lia. apply bpow_le. lia.
Qed.

(** truncation *)
Lemma f_trunc_spec x : fin x = true -> f_trunc x = Some (Ztrunc (FR x)).
Proof.
  destruct x as [s|s| |s m e]; try discriminate; intros _; unfold FR; cbn [SF2R f_trunc].
  - by rewrite Ztrunc_IZR.
  - f_equal.
    assert (Ztrunc (F2R (Float radix2 (Z.pos m) e)) = if 0 <=? e then Z.pos m * 2 ^ e else Z.pos m / 2 ^ (- e)) as T.
    { rewrite Ztrunc_floor by (apply F2R_ge_0; cbn; lia).
      destruct (Z.leb_spec 0 e).
      - unfold F2R. cbn [Fnum Fexp]. rewrite <- (IZR_Zpower radix2) by lia. rewrite <- mult_IZR. by rewrite Zfloor_IZR.
      - unfold F2R. cbn [Fnum Fexp]. replace e with (- - e) at 1 by lia. rewrite bpow_opp.
        rewrite <- (IZR_Zpower radix2) by lia. fold (Rdiv (IZR (Z.pos m)) (IZR (radix2 ^ (- e)))).
        rewrite Zfloor_div; [done|]. cbn. lia. }
    destruct s; cbn [cond_Zopp].
    + change (Z.neg m) with (- Z.pos m). rewrite F2R_Zopp, Ztrunc_opp. by rewrite T.
    + by rewrite T.
Qed.

Lemma fin_not_nan x : fin x = true -> is_nan x = false.
Proof. by destruct x. Qed.

(** ** Linear buckets: no undefined behaviour when the upper bound is finite *)
Lemma linear_index_ok n w o v : 1 <= n -> n + 2 <= int32_max -> valid w -> valid o -> valid v ->
  fle w f_zero = false -> fin (linear_upper n w o) = true ->
  exists i : nat, linear_index n w o v = Ok (Z.of_nat i) /\ Z.of_nat i < n + 2.
Proof.
  intros Hn Hn2 Vw Vo Vv Hw Hu. unfold int32_max in Hn2.
  unfold linear_index. cbn zeta. destruct (flt v o) eqn:Elo; cbn [orb].
  { exists 0%nat. split; [done|lia]. }
  destruct (is_nan v) eqn:Env. { exists 0%nat. split; [done|lia]. }
  destruct (fle (linear_upper n w o) v) eqn:Eup.
  { exists (Z.to_nat (n + 1)). rewrite add32_fits by (unfold int32_min, int32_max; lia). split; [f_equal; lia|lia]. }
  destruct (f_of_int_spec n) as (Vn & Fn & Rn); [lia|].
  set (p := fmul (f_of_int n) w) in *. unfold linear_upper in Hu, Eup. fold p in Hu, Eup.
  assert (valid p) as Vp by (by apply fmul_valid).
  destruct (fadd_fin o p Vo Vp Hu) as (Fo & Fp & Ru).
  assert (1 <= IZR n)%R as Hn1 by (apply IZR_le; lia).
  destruct (fmul_fin (f_of_int n) w Vn Vw Fn) as [Fw Rp]; [rewrite Rn; lra|done|]. fold p in Rp. rewrite Rn in Rp.
  assert (0 < FR w)%R as Hw0.
  { rewrite fle_R in Hw by done. change (FR f_zero) with 0%R in Hw.
    revert Hw. case Rle_bool_spec; [discriminate|done]. }
  (* v is finite *)
  assert (valid (fadd o p)) as Vu by (by apply fadd_valid).
  apply fle_false in Eup; [|by apply fin_not_nan|done].
  assert (fin v = true) as Fv.
  { destruct v as [?|s| |]; try done. exfalso. destruct s.
    - destruct o as [?|[]| |]; discriminate.
    - destruct (fadd o p) as [?|[]| |]; discriminate. }
  rewrite flt_R in Elo, Eup by done.
  revert Elo Eup. case Rlt_bool_spec; [discriminate|]. intros Elo _. case Rlt_bool_spec; [|discriminate]. intros Eup _.
  (* v <= o + p *)
  assert (FR v <= FR o + FR p)%R as Hvp.
  { apply Rnot_lt_le. intros C. apply (Rlt_not_le _ _ Eup). rewrite Ru.
    rewrite <- (rnd_id (FR v)) by (by apply FR_format). apply rnd_le. lra. }
  assert (0 <= rnd (FR v - FR o) <= FR p)%R as [Hd0 Hdp].
  { split.
    - rewrite <- (rnd_id 0%R) by apply generic_format_0. apply rnd_le. lra.
    - rewrite <- (rnd_id (FR p)) by (by apply FR_format). apply rnd_le. lra. }
  assert (FR p < bpow radix2 1024)%R as Hpb.
  { destruct (to_bin p Vp) as [b Eb]. rewrite <- Eb, FR_B. eapply Rle_lt_trans; [apply Rle_abs|].
    apply (abs_B2R_lt_emax 53 1024 b). }
  destruct (fsub_small v o) as [Fd Rd]; [done..| |].
  { rewrite Rabs_pos_eq by done. lra. }
  set (d := fsub v o) in *. assert (valid d) as Vd by (by apply fsub_valid).
  (* p / w <= n + 1/2 *)
  assert (FR p / FR w <= IZR n + / 2)%R as Hq.
  { apply Rmult_le_reg_r with (FR w); [done|]. unfold Rdiv. rewrite Rmult_assoc, Rinv_l, Rmult_1_r by lra.
    rewrite Rp. set (x := (IZR n * FR w)%R).
    assert (0 < x)%R by (unfold x; apply Rmult_lt_0_compat; lra).
    pose proof (error_le_half_ulp radix2 fx (fun x => negb (Z.even x)) x) as He.
    change (round radix2 fx (Znearest (fun x => negb (Z.even x))) x) with (rnd x) in He.
    apply Rabs_le_inv in He as [_ He].
    replace ((IZR n + / 2) * FR w)%R with (x + / 2 * FR w)%R by (unfold x; ring).
    assert (/ 2 * ulp radix2 fx x <= / 2 * FR w)%R; [|lra]. apply Rmult_le_compat_l; [lra|].
    destruct (Rle_or_lt (bpow radix2 (-1074 + 53 - 1)) x) as [Hbig|Hsmall].
    - pose proof (ulp_FLT_le radix2 (-1074) 53 x) as U. rewrite Rabs_pos_eq in U by lra. specialize (U Hbig).
      change (FLT_exp (-1074) 53) with fx in U.
      eapply Rle_trans; [exact U|]. unfold x. cbn -[bpow].
      apply Rle_trans with (IZR (2 ^ 31) * FR w * bpow radix2 (1 - 53))%R.
      + apply Rmult_le_compat_r; [apply bpow_ge_0|]. apply Rmult_le_compat_r; [lra|]. apply IZR_le. lia.
      + rewrite (IZR_Zpower radix2) by lia.
        replace (bpow radix2 31 * FR w * bpow radix2 (1 - 53))%R with (FR w * (bpow radix2 31 * bpow radix2 (1 - 53)))%R by ring.
        rewrite <- bpow_plus. rewrite <- (Rmult_1_r (FR w)) at 2. apply Rmult_le_compat_l; [lra|].
        change 1%R with (bpow radix2 0). apply bpow_le. lia.
    - pose proof (ulp_FLT_small radix2 (-1074) 53 x) as U.
      change (FLT_exp (-1074) 53) with fx in U. rewrite U.
      + pose proof (generic_format_ge_bpow radix2 fx (-1074)) as G.
        apply G; [|done|by apply FR_format]. intros e. unfold SpecFloat.fexp, SpecFloat.emin. lia.
      + rewrite Rabs_pos_eq by lra. eapply Rlt_trans; [exact Hsmall|]. apply bpow_lt. lia. }
  assert (0 <= rnd (FR d / FR w) <= IZR n + / 2)%R as [Hq0 Hq1].
  { split.
    - rewrite <- (rnd_id 0%R) by apply generic_format_0. apply rnd_le.
      apply Rmult_le_pos; [rewrite Rd; lra|]. left. by apply Rinv_0_lt_compat.
    - rewrite <- (rnd_id (IZR n + / 2)%R) by (apply format_half; lia). apply rnd_le.
      eapply Rle_trans; [|exact Hq]. apply Rmult_le_compat_r; [left; by apply Rinv_0_lt_compat|]. rewrite Rd. lra. }
  destruct (fdiv_small d w) as [Fq Rq]; [done..|lra| |].
  { rewrite Rabs_pos_eq by done. eapply Rle_lt_trans; [exact Hq1|].
    apply Rle_lt_trans with (IZR (2 ^ 32)).
    - apply Rle_trans with (IZR (n + 1)); [rewrite plus_IZR; lra|]. apply IZR_le. lia.
    - rewrite (IZR_Zpower radix2) by lia. apply bpow_lt. lia. }
  assert (0 <= Ztrunc (FR (fdiv d w)) <= n) as Ht.
  { rewrite Rq. rewrite Ztrunc_floor by done. split; [by apply Zfloor_lub|].
    apply Zlt_succ_le. apply lt_IZR. unfold Z.succ. rewrite plus_IZR.
    eapply Rle_lt_trans; [apply Zfloor_lb|]. lra. }
  unfold f_to_int. rewrite (f_trunc_spec _ Fq).
  unfold in_int32. rewrite (proj2 (Z.leb_le _ _)), (proj2 (Z.leb_le _ _)) by (unfold int32_min, int32_max; lia).
  cbn [andb obind]. rewrite add32_fits by (unfold int32_min, int32_max; lia).
  exists (Z.to_nat (1 + Ztrunc (FR (fdiv d w)))). split; [f_equal; lia|lia].
Qed.

Lemma linear_no_ub log2 d l n w o v : built log2 d l -> d_count d < int64_max -> d_option d = BLinear n w o ->
  valid w -> valid o -> valid v -> fin (linear_upper n w o) = true ->
  exists d', AddSample log2 v d = Ok (SOk, d').
Proof.
  intros Hb Hc Ho Vw Vo Vv Hu. pose proof (built_option _ _ _ Hb) as Hopt. rewrite Ho in Hopt. destruct Hopt as (Hn & Hn2 & Hw).
  destruct (linear_index_ok n w o v Hn Hn2 Vw Vo Vv Hw Hu) as (i & Hi & Hlt).
  destruct (add_sample_ok log2 d l v i) as (d' & Ha & _); [done|done|by rewrite Ho|by rewrite Ho| |eauto].
  by rewrite Ho.
Qed.

Lemma fin_finite x : finite x <-> fin x = true.
Proof. by destruct x. Qed.
Lemma between_fin x lo hi : fin lo = true -> fin hi = true -> fle lo x = true -> fle x hi = true -> fin x = true.
Proof. destruct x as [?|[]| |], lo as [?|[]| |], hi as [?|[]| |]; try done. Qed.

(** ** Exponential buckets: a sufficient condition for ordinary parameters *)
Lemma exponential_quotient log2 g sc v : sane_log2 log2 -> valid sc -> valid v -> valid (log2 g) ->
  fle sc f_zero = false -> fin sc = true -> fin v = true -> fin (fdiv v sc) = true -> fle sc v = true ->
  fin (log2 g) = true -> fle f_2m20 (log2 g) = true ->
  exists t, f_trunc (fdiv (log2 (fdiv v sc)) (log2 g)) = Some t /\ -1 <= t < int32_max.
Proof.
  intros Hl Vs Vv Vg Hs Fs Fv Fq Hle Fg Hg.
  assert (0 < FR sc)%R as Hs0.
  { rewrite fle_R in Hs by done. change (FR f_zero) with 0%R in Hs.
    revert Hs. case Rle_bool_spec; [discriminate|done]. }
  assert (FR sc <= FR v)%R as Hsv.
  { rewrite fle_R in Hle by done. revert Hle. by case Rle_bool_spec. }
  set (q := fdiv v sc) in *. assert (valid q) as Vq by (by apply fdiv_valid).
  assert (FR f_one = 1%R) as R1.
  { unfold FR, f_one. cbn [SF2R]. change (Z.pos 4503599627370496) with (2 ^ 52). unfold F2R. cbn [cond_Zopp Fnum Fexp].
    rewrite (IZR_Zpower radix2) by lia. by rewrite <- bpow_plus. }
  assert (FR q = rnd (FR v / FR sc)) as Rq by (apply fdiv_fin; [done..|lra|done]).
  assert (fle f_one q = true) as Hq1.
  { rewrite fle_R by done. rewrite R1, Rq. apply Rle_bool_true.
    rewrite <- (rnd_id 1%R) by (change 1%R with (IZR 1); by apply format_int). apply rnd_le.
    apply Rmult_le_reg_r with (FR sc); [done|]. unfold Rdiv. rewrite Rmult_assoc, Rinv_l, Rmult_1_r by lra. lra. }
  destruct (Hl q Vq ltac:(by apply fin_finite) Hq1) as (Va & Ha0 & Ha1). set (a := log2 q) in *.
  assert (valid f_1024 /\ fin f_1024 = true /\ FR f_1024 = 1024%R) as (V1 & F1 & R1024) by (by apply f_of_int_spec).
  assert (fin a = true) as Fa by (by apply (between_fin a f_zero f_1024)).
  rewrite fle_R in Ha0 by done. change (FR f_zero) with 0%R in Ha0. revert Ha0. case Rle_bool_spec; [|discriminate]. intros Ha0 _.
  rewrite fle_R, R1024 in Ha1 by done. revert Ha1. case Rle_bool_spec; [|discriminate]. intros Ha1 _.
  assert (FR f_2m20 = bpow radix2 (-20)) as R20.
  { unfold FR, f_2m20. cbn [SF2R]. change (Z.pos 4503599627370496) with (2 ^ 52). unfold F2R. cbn [cond_Zopp Fnum Fexp].
    rewrite (IZR_Zpower radix2) by lia. by rewrite <- bpow_plus. }
  rewrite fle_R, R20 in Hg by done. revert Hg. case Rle_bool_spec; [|discriminate]. intros Hg _.
  pose proof (bpow_gt_0 radix2 (-20)). set (b := log2 g) in *.
  assert (0 <= rnd (FR a / FR b) <= bpow radix2 30)%R as [H0 H1].
  { split.
    - rewrite <- (rnd_id 0%R) by apply generic_format_0. apply rnd_le.
      apply Rmult_le_pos; [done|]. left. apply Rinv_0_lt_compat. lra.
    - rewrite <- (rnd_id (bpow radix2 30)).
      2: { change (bpow radix2 30) with (IZR (2 ^ 30)). by apply format_int. }
      apply rnd_le. apply Rmult_le_reg_r with (FR b); [lra|]. unfold Rdiv. rewrite Rmult_assoc, Rinv_l, Rmult_1_r by lra.
      apply Rle_trans with 1024%R; [done|]. change 1024%R with (bpow radix2 10).
      replace 10 with (30 + -20) by lia. rewrite bpow_plus. apply Rmult_le_compat_l; [apply bpow_ge_0|done]. }
  destruct (fdiv_small a b) as [Fd Rd]; [done..|lra| |].
  { rewrite Rabs_pos_eq by done. eapply Rle_lt_trans; [exact H1|]. apply bpow_lt. lia. }
  exists (Ztrunc (FR (fdiv a b))). split; [by apply f_trunc_spec|]. rewrite Rd.
  rewrite Ztrunc_floor by done. split; [assert (0 <= Zfloor (rnd (FR a / FR b))); [by apply Zfloor_lub|lia]|].
  apply lt_IZR. eapply Rle_lt_trans; [apply Zfloor_lb|]. eapply Rle_lt_trans; [exact H1|].
  change (bpow radix2 30) with (IZR (2 ^ 30)). apply IZR_lt. done.
Qed.

Lemma exponential_no_ub_ordinary log2 d l n g sc v : sane_log2 log2 -> built log2 d l -> d_count d < int64_max ->
  d_option d = BExponential n g sc ->
  is_double sc -> finite sc -> is_double (log2 g) -> finite (log2 g) -> fle f_2m20 (log2 g) = true ->
  is_double v -> (fle sc v = true -> finite (fdiv v sc)) ->
  exists d', AddSample log2 v d = Ok (SOk, d').
Proof.
  intros Hl Hb Hc Ho Vs Fs%fin_finite Vg Fg%fin_finite Hg Vv Fq. apply (exponential_no_ub log2 d l n g sc v Hb Hc Ho).
  pose proof (built_option _ _ _ Hb) as Hopt. rewrite Ho in Hopt. destruct Hopt as (Hn & Hn2 & _ & Hs).
  intros Hle. specialize (Fq Hle). apply fin_finite in Fq.
  apply exponential_quotient; try done.
  assert (is_nan v = false) by (by apply (fle_nan sc v)).
  destruct v as [?|s| |]; try done. exfalso.
  destruct sc as [?|[]| |?]; try done.
Qed.

Lemma linear_no_ub' log2 d l n w o v : built log2 d l -> d_count d < int64_max -> d_option d = BLinear n w o ->
  is_double w -> is_double o -> is_double v -> finite (linear_upper n w o) ->
  exists d', AddSample log2 v d = Ok (SOk, d').
Proof. intros ? ? ? ? ? ? ?%fin_finite. by eapply linear_no_ub. Qed.

(** ** Undefined behaviour *)
Lemma dist_ub_explicit : exists d, InitExplicit [] empty_distribution = Ok (SOk, d) /\
  forall log2 v, AddSample log2 v d = UB IndexOutOfRange.
Proof. eexists. split; reflexivity. Qed.
Lemma dist_ub_linear : exists d, InitLinear 2 f_max (SFopp f_max) empty_distribution = Ok (SOk, d) /\
  forall log2, AddSample log2 f_max d = UB BadFloatToInt.
Proof. eexists. split; [vm_compute; reflexivity|]. intros log2. vm_compute. reflexivity. Qed.
Lemma dist_ub_linear_nan : exists d, InitLinear 2 S754_nan f_zero empty_distribution = Ok (SOk, d) /\
  forall log2, AddSample log2 f_one d = UB BadFloatToInt.
Proof. eexists. split; [vm_compute; reflexivity|]. intros log2. vm_compute. reflexivity. Qed.
Lemma dist_ub_exponential : exists d, InitExponential 8 f_two f_one empty_distribution = Ok (SOk, d) /\
  forall log2, log2 f_inf = f_inf -> log2 f_two = f_one -> AddSample log2 f_inf d = UB BadFloatToInt.
Proof.
  exists (set_buckets (replicate 10 0) (set_option (BExponential 8 f_two f_one) empty_distribution)).
  split; [vm_compute; reflexivity|]. intros log2 H1 H2. unfold AddSample. cbn [d_option set_buckets set_option].
  unfold exponential_index. change (fle f_one f_inf) with true. change (fdiv f_inf f_one) with f_inf.
  rewrite H1, H2. reflexivity.
Qed.

(** ** A layout with finite parameters always matches itself *)
Lemma close_refl x : valid x -> fin x = true -> IsCloseEnough x x = true.
Proof.
  intros Vx Fx. unfold IsCloseEnough.
  assert (exists s, fsub x x = S754_zero s) as [s E].
  { destruct x as [s|?| |s m e]; try discriminate.
    - destruct s; eexists; reflexivity.
    - exists false. unfold fsub, SFsub. rewrite Z.sub_diag. reflexivity. }
  rewrite E. cbn [SFabs].
  assert (valid (SFabs x) /\ fin (SFabs x) = true) as [Va Fa] by (by destruct x).
  assert (0 <= FR (SFabs x))%R as H0.
  { destruct x as [?|?| |? m e]; try discriminate; unfold FR; cbn; [lra|]. apply F2R_ge_0. cbn. lia. }
  assert (valid f_1em5) as Ve by done.
  destruct (to_bin _ Va) as [a Ea], (to_bin _ Ve) as [b Eb]. rewrite <- Ea, <- Eb, fmul_B.
  pose proof (Bmult_correct 53 1024 _ _ mode_NE b a) as C.
  assert (0 <= B2R b * B2R a)%R as Hm.
  { apply Rmult_le_pos; rewrite <- FR_B; [rewrite Eb; unfold FR; cbn; apply F2R_ge_0; cbn; lia|by rewrite Ea]. }
  assert (is_finite b = true) as Fb by (rewrite <- fin_B, Eb; done).
  assert (is_finite a = true) as Fa' by (rewrite <- fin_B, Ea; done).
  destruct (Rlt_bool _ _) eqn:El.
  - destruct C as (C1 & C2 & _). rewrite Fa', Fb in C2. rewrite <- (fin_B (Bmult mode_NE b a)) in C2. cbn in C2.
    rewrite fle_R; [|done|apply valid_B|done|done]. rewrite FR_B, C1. change (FR (S754_zero false)) with 0%R.
    apply Rle_bool_true. rewrite <- (rnd_id 0%R) by apply generic_format_0. by apply rnd_le.
  - rewrite C. assert (Bsign b = false) as -> by (apply (f_equal sign_SF) in Eb; by destruct b).
    assert (Bsign a = false) as ->.
    { destruct x as [?|?| |? m e]; try discriminate; cbn [SFabs] in Ea; by destruct a; inversion Ea. }
    done.
Qed.

Lemma layout_refl f t : d_option f = d_option t -> layout_finite (d_option t) -> BucketsApproximatelyEqual f t = true.
Proof.
  intros E. unfold BucketsApproximatelyEqual. rewrite E. destruct (d_option t) as [|n x y|n x y|b]; cbn [layout_finite]; [done| | |].
  1-2: intros (V1 & F1 & V2 & F2); apply fin_finite in F1, F2;
    rewrite Z.eqb_refl, (close_refl x), (close_refl y) by done; done.
  intros H. clear E. rewrite Nat.eqb_refl. cbn [andb]. induction H as [|x b [V F] H IH]; [done|]. apply fin_finite in F.
  cbn [combine forallb fst snd]. by rewrite (close_refl x), IH.
Qed.
Lemma merge_same_layout log2 f t lf lt : built log2 f lf -> built log2 t lt -> d_option f = d_option t ->
  layout_finite (d_option t) -> d_count f + d_count t <= int64_max ->
  exists r, Merge f t = Ok (SOk, r) /\ d_count r = d_count t + d_count f /\
    d_buckets r = zip_with Z.add (d_buckets t) (d_buckets f).
Proof.
  intros Hf Ht Ho Hl Hc.
  destruct (built_inv _ _ _ Hf) as (F1 & F2 & F3 & F4), (built_inv _ _ _ Ht) as (T1 & T2 & T3 & T4).
  assert (length (d_buckets f) = length (d_buckets t)) as El by (rewrite Ho in F4; lia).
  assert (is_ok (Merge f t) = true) as Hok.
  { destruct (is_ok (Merge f t)) eqn:E; [done|]. apply merge_ub in E. exfalso. revert E.
    unfold Merge. rewrite layout_refl by done. rewrite El, Nat.eqb_refl. cbn [negb].
    destruct (_ <=? _); [done|]. destruct (_ <=? _); [done|]. unfold MergeStatistics. cbn [d_stats s_count].
    rewrite add64_fits by (unfold int64_min; lia). cbn [obind].
    assert (exists r, merge_buckets (d_buckets f) (d_buckets t) = Ok r) as [r ->]; [|done].
    clear F3 F4 T3 T4. assert (sum_Z (d_buckets f) + sum_Z (d_buckets t) <= int64_max) as Hs by lia.
    revert F1 T1 El Hs. generalize (d_buckets f) (d_buckets t). clear. intros l1.
    induction l1 as [|x l1 IH]; intros [|y l2] F T El Hs; try discriminate; [by eexists|].
    inversion F as [|?? Hx F']; inversion T as [|?? Hy T']; subst. rewrite !sum_Z_cons in Hs.
    assert (0 <= sum_Z l1) by (clear - F'; induction F'; [done|]; rewrite sum_Z_cons; lia).
    assert (0 <= sum_Z l2) by (clear - T'; induction T'; [done|]; rewrite sum_Z_cons; lia).
    cbn [merge_buckets]. rewrite add64_fits by (unfold int64_min; lia). cbn [obind].
    destruct (IH l2) as [r ->]; [done|done|by injection El|lia|]. by eexists. }
  destruct (Merge f t) as [[st r]| | |] eqn:E; try discriminate. exists r.
  assert (forall l, Forall (fun c => 0 <= c) l -> sum_Z l <= 0 -> l = replicate (length l) 0) as Z0.
  { clear. induction 1 as [|x l Hx Hl IH]; [done|]. rewrite sum_Z_cons. intros Hs.
    assert (0 <= sum_Z l) by (clear - Hl; induction Hl; [done|]; rewrite sum_Z_cons; lia).
    cbn [length replicate]. f_equal; [lia|apply IH; lia]. }
  assert (forall l n, length l = n -> zip_with Z.add l (replicate n 0) = l) as ZR.
  { clear. induction l as [|x l IH]; intros [|n] H; try discriminate; [done|]. cbn. f_equal; [lia|]. apply IH. by injection H. }
  assert (forall l n, length l = n -> zip_with Z.add (replicate n 0) l = l) as ZL.
  { clear. induction l as [|x l IH]; intros [|n] H; try discriminate; [done|]. cbn. f_equal. apply IH. by injection H. }
  pose proof E as E'.
  apply merge_spec in E as [[-> ->]|[(-> & Hf0 & ->)|[(-> & Hf0 & Ht0 & ->)|(-> & _ & _ & Hcr & Hbr & _)]]].
  - exfalso. revert E'. unfold Merge. rewrite layout_refl by done. rewrite El, Nat.eqb_refl. cbn [negb].
    destruct (_ <=? _); [done|]. destruct (_ <=? _); [done|].
    destruct (MergeStatistics _ _ _); cbn [obind]; try discriminate. destruct (merge_buckets _ _); discriminate.
  - split_and!; [done|lia|]. rewrite (Z0 (d_buckets f)) by (done || lia). rewrite ZR by done. done.
  - split_and!; [done|lia|]. rewrite (Z0 (d_buckets t)) by (done || lia). rewrite ZL by done. done.
  - done.
Qed.
