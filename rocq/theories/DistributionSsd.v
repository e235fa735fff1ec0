(** The sum of squared deviations of doubles: never negative, and never smaller after more samples. *)
From Coq Require Import Reals Lra.
From Flocq Require Import Core.Core IEEE754.BinarySingleNaN.
From Verif Require Import Proto Distribution DistributionSpec DistributionRSpec DistributionProofs Float64Proofs DistributionLinear
  DistributionMeanSpec DistributionSpread DistributionMean.
Open Scope Z_scope.

#[local] Existing Instance Float64Proofs.Hprec.
#[local] Existing Instance Float64Proofs.Hmax.
#[local] Instance fx_valid : Valid_exp fx.
Proof. apply (fexp_correct 53 1024). done. Qed.
#[local] Instance rnd_valid : Valid_rnd (round_mode mode_NE).
Proof. apply valid_rnd_round_mode. Qed.

Lemma rnd_ge0 z : (0 <= z)%R -> (0 <= rnd z)%R.
Proof. intros. apply round_ge_generic; [typeclasses eauto..|apply generic_format_0|done]. Qed.
Lemma rnd_le0 z : (z <= 0)%R -> (rnd z <= 0)%R.
Proof. intros. apply round_le_generic; [typeclasses eauto..|apply generic_format_0|done]. Qed.

(** Addition of non-negative doubles. *)
Lemma add_nonneg x y a c : valid x -> valid y -> fin x = true -> fin y = true ->
  (0 <= FR x <= a)%R -> (0 <= FR y <= c)%R -> (a + c <= bpow radix2 1000)%R ->
  valid (fadd x y) /\ fin (fadd x y) = true /\ (FR x <= FR (fadd x y))%R /\ (FR y <= FR (fadd x y))%R /\
  (FR (fadd x y) <= (a + c) * (1 + eu))%R.
Proof.
  intros Vx Vy Fx Fy Hx Hy Hac. destruct (fadd_small x y) as [F E]; [done..| |].
  { apply rnd_bounded. rewrite Rabs_pos_eq by lra. lra. }
  split; [by apply fadd_valid|]. split; [done|]. rewrite E. split; [|split].
  - rewrite <- (rnd_id (FR x)) at 1 by (by apply FR_format). apply rnd_le. lra.
  - rewrite <- (rnd_id (FR y)) at 1 by (by apply FR_format). apply rnd_le. lra.
  - pose proof (rel_add x y Vx Vy) as R. apply Rabs_le_inv in R. rewrite (Rabs_pos_eq (FR x + FR y)) in R by lra.
    pose proof eu_small. nra.
Qed.

Section ssd.
Context (B : R) (HB : (bpow radix2 (-500) <= B <= bpow radix2 400)%R).
Lemma HB' : (bpow radix2 (-1000) <= B <= bpow radix2 900)%R.
Proof.
  destruct HB as [H1 H2]. split.
  - eapply Rle_trans; [|exact H1]. apply bpow_le. lia.
  - eapply Rle_trans; [exact H2|]. apply bpow_le. lia.
Qed.
Lemma Bp : (0 < B)%R.
Proof. exact (B_pos B HB'). Qed.
Lemma tiny_B2 : (bpow radix2 (-1075) <= eu * (B * B))%R.
Proof.
  apply Rle_trans with (eu * (bpow radix2 (-500) * bpow radix2 (-500)))%R.
  - rewrite <- !bpow_plus. apply bpow_le. lia.
  - apply Rmult_le_compat_l; [apply bpow_ge_0|]. apply Rmult_le_compat; try apply bpow_ge_0; tauto.
Qed.
Lemma square_fits T z : (0 <= T <= bpow radix2 150)%R -> (z <= T * (B * B))%R -> (z <= bpow radix2 1000)%R.
Proof.
  intros HT Hz. eapply Rle_trans; [exact Hz|]. pose proof Bp.
  apply Rle_trans with (bpow radix2 150 * (bpow radix2 400 * bpow radix2 400))%R.
  - apply Rmult_le_compat; [lra|nra|tauto|]. apply Rmult_le_compat; lra.
  - rewrite <- !bpow_plus. apply bpow_le. lia.
Qed.
Lemma linear_fits T z : (0 <= T <= bpow radix2 150)%R -> (z <= T * B)%R -> (z <= bpow radix2 1000)%R.
Proof.
  intros HT Hz. eapply Rle_trans; [exact Hz|]. pose proof Bp.
  apply Rle_trans with (bpow radix2 150 * bpow radix2 400)%R.
  - apply Rmult_le_compat; lra.
  - rewrite <- !bpow_plus. apply bpow_le. lia.
Qed.
Lemma pow150 z : (z <= IZR (2 ^ 130))%R -> (z <= bpow radix2 150)%R.
Proof.
  intros H. eapply Rle_trans; [exact H|]. rewrite (IZR_Zpower radix2) by lia. apply bpow_le. lia.
Qed.

(** A difference of two numbers of moderate size. *)
Lemma diff x y : valid x -> valid y -> fin x = true -> fin y = true -> (Rabs (FR x) <= 2 * B)%R -> (Rabs (FR y) <= 2 * B)%R ->
  valid (fsub x y) /\ fin (fsub x y) = true /\ FR (fsub x y) = rnd (FR x - FR y)%R /\ (Rabs (FR (fsub x y)) <= 5 * B)%R.
Proof.
  intros Vx Vy Fx Fy Hx Hy. pose proof Bp as HB0. pose proof eu_small as He.
  assert (Rabs (FR x - FR y) <= 4 * B)%R as Hd.
  { unfold Rminus. eapply Rle_trans; [apply Rabs_triang|]. rewrite Rabs_Ropp. lra. }
  destruct (fsub_small x y) as [F E]; [done..| |].
  { apply rnd_bounded. apply (linear_fits 4); [|done]. split; [lra|]. apply pow150. apply IZR_le. lia. }
  split; [by apply fsub_valid|]. split; [done|]. split; [done|]. rewrite E.
  pose proof (rel_sub x y Vx Vy) as R.
  replace (rnd (FR x - FR y)) with ((FR x - FR y) + (rnd (FR x - FR y) - (FR x - FR y)))%R by ring.
  eapply Rle_trans; [apply Rabs_triang|].
  assert (Rabs (FR x - FR y) * eu <= B)%R by nra. lra.
Qed.

(** The product of two deviations on the same side. *)
Lemma same_side x y : valid x -> valid y -> fin x = true -> fin y = true -> (Rabs (FR x) <= 5 * B)%R -> (Rabs (FR y) <= 5 * B)%R ->
  (0 <= FR x * FR y)%R ->
  valid (fmul x y) /\ fin (fmul x y) = true /\ (0 <= FR (fmul x y) <= 27 * (B * B))%R.
Proof.
  intros Vx Vy Fx Fy Hx Hy Hp. pose proof Bp as HB0. pose proof eu_small as He. pose proof tiny_B2 as Ht.
  assert (FR x * FR y <= 25 * (B * B))%R as Hu.
  { eapply Rle_trans; [apply Rle_abs|]. rewrite Rabs_mult.
    apply Rle_trans with (5 * B * (5 * B))%R; [|lra]. apply Rmult_le_compat; try apply Rabs_pos; done. }
  destruct (fmul_small x y) as [F E]; [done..| |].
  { apply rnd_bounded. rewrite Rabs_pos_eq by done. apply (square_fits 25); [|done]. split; [lra|].
    apply pow150. apply IZR_le. lia. }
  split; [by apply fmul_valid|]. split; [done|]. rewrite E. split; [by apply rnd_ge0|].
  pose proof (rel_abs (FR x * FR y)) as R. apply Rabs_le_inv in R. rewrite (Rabs_pos_eq (FR x * FR y)) in R by done.
  assert (0 < B * B)%R by nra. assert (FR x * FR y * eu <= B * B)%R by nra. nra.
Qed.

(** [n d d], as Merge computes it. *)
Lemma weighted_square n d : 1 <= n <= 2 ^ 50 -> valid d -> fin d = true -> (Rabs (FR d) <= 5 * B)%R ->
  let p := fmul (fmul (f_of_int n) d) d in
  valid p /\ fin p = true /\ (0 <= FR p <= 27 * IZR n * (B * B))%R.
Proof.
  intros Hn Vd Fd Hd p. pose proof Bp as HB0. pose proof eu_small as He. pose proof tiny_B2 as Ht.
  destruct (f_of_int_spec n) as (Vn & Fn & Rn); [lia|].
  assert (1 <= IZR n)%R as HN by (apply IZR_le; lia). assert (IZR n <= IZR (2 ^ 50))%R as HN2 by (apply IZR_le; lia).
  assert (Rabs (IZR n * FR d) <= 5 * IZR n * B)%R as A1.
  { rewrite Rabs_mult, (Rabs_pos_eq (IZR n)) by lra. nra. }
  destruct (fmul_small (f_of_int n) d) as [F1 E1]; [done..| |].
  { rewrite Rn. apply rnd_bounded. apply (linear_fits (5 * IZR n)); [|done]. split; [lra|]. apply pow150.
    apply Rle_trans with (5 * IZR (2 ^ 50))%R; [lra|]. rewrite <- mult_IZR. apply IZR_le. lia. }
  set (q := fmul (f_of_int n) d) in *. assert (valid q) as Vq by (by apply fmul_valid). rewrite Rn in E1.
  pose proof (rel_mul n d Vd) as R1. rewrite <- E1 in R1.
  assert (Rabs (FR q) <= 5 * IZR n * B * (1 + eu))%R as A2.
  { replace (FR q) with (IZR n * FR d + (FR q - IZR n * FR d))%R by ring. eapply Rle_trans; [apply Rabs_triang|]. nra. }
  assert (0 <= FR q * FR d)%R as Hs.
  { rewrite E1. destruct (Rle_or_lt 0 (FR d)) as [P|P].
    - apply Rmult_le_pos; [apply rnd_ge0|done]. nra.
    - rewrite <- Rmult_opp_opp. apply Rmult_le_pos; [|lra]. assert (rnd (IZR n * FR d) <= 0)%R; [apply rnd_le0; nra|lra]. }
  assert (FR q * FR d <= 25 * IZR n * (B * B) * (1 + eu))%R as Hu.
  { eapply Rle_trans; [apply Rle_abs|]. rewrite Rabs_mult.
    apply Rle_trans with (5 * IZR n * B * (1 + eu) * (5 * B))%R; [|lra].
    apply Rmult_le_compat; try apply Rabs_pos; done. }
  assert (0 < B * B)%R as HBB by nra. assert (0 < IZR n * (B * B))%R as HnBB by nra.
  assert (FR q * FR d <= 26 * IZR n * (B * B))%R as Hu2 by nra.
  destruct (fmul_small q d) as [F2 E2]; [done..| |].
  { apply rnd_bounded. rewrite Rabs_pos_eq by done. apply (square_fits (26 * IZR n)); [|done]. split; [lra|]. apply pow150.
    apply Rle_trans with (26 * IZR (2 ^ 50))%R; [lra|]. rewrite <- mult_IZR. apply IZR_le. lia. }
  split; [by apply fmul_valid|]. split; [done|]. unfold p. rewrite E2. split; [by apply rnd_ge0|].
  pose proof (rel_abs (FR q * FR d)) as R. apply Rabs_le_inv in R. rewrite (Rabs_pos_eq (FR q * FR d)) in R by done.
  assert (FR q * FR d * eu <= 26 * IZR n * (B * B) * / 1000000)%R by nra.
  assert (eu * (B * B) <= IZR n * (B * B) * / 1000000)%R by nra. lra.
Qed.

(** What is known of the sum of squared deviations after [n] samples. *)
Definition ssd_ok (n : Z) (x : double) : Prop :=
  valid x /\ fin x = true /\ (0 <= FR x <= 100 * (IZR n * IZR n) * (B * B))%R.

Lemma count_eu n : 1 <= n <= 2 ^ 50 -> (0 < IZR n * eu <= / 8)%R.
Proof.
  intros Hn. split.
  - apply Rmult_lt_0_compat; [apply IZR_lt; lia|apply bpow_gt_0].
  - apply Rle_trans with (IZR (2 ^ 50) * eu)%R.
    + apply Rmult_le_compat_r; [apply bpow_ge_0|]. apply IZR_le. lia.
    + rewrite (IZR_Zpower radix2), <- bpow_plus by lia. change (bpow radix2 (50 + -53)) with (/ 8)%R. lra.
Qed.
Lemma quad_fits n T z : 1 <= n <= 2 ^ 50 -> (0 <= T <= 200 * (IZR n * IZR n))%R -> (z <= T * (B * B))%R -> (z <= bpow radix2 1000)%R.
Proof.
  intros Hn HT. apply square_fits. split; [tauto|]. apply pow150. eapply Rle_trans; [apply HT|].
  rewrite <- !mult_IZR. apply IZR_le. nia.
Qed.

Lemma ssd_add n x p : 1 <= n -> n + 1 <= 2 ^ 50 -> ssd_ok n x -> valid p -> fin p = true -> (0 <= FR p <= 27 * (B * B))%R ->
  ssd_ok (n + 1) (fadd x p) /\ (FR x <= FR (fadd x p))%R.
Proof.
  intros Hn Hn2 (Vx & Fx & Hx) Vp Fp Hp. pose proof Bp as HB0. pose proof eu_small as He.
  assert (1 <= IZR n)%R as HN by (apply IZR_le; lia).
  pose proof (count_eu n ltac:(lia)) as Hc.
  destruct (add_nonneg x p _ _ Vx Vp Fx Fp Hx Hp) as (V & F & L1 & L2 & U).
  { apply (quad_fits n (100 * (IZR n * IZR n) + 27)); [lia| |lra]. split; [nra|]. nra. }
  split; [|done]. split; [done|]. split; [done|]. split; [lra|]. eapply Rle_trans; [exact U|].
  replace ((100 * (IZR n * IZR n) * (B * B) + 27 * (B * B)) * (1 + eu))%R
    with ((100 * (IZR n * IZR n) + 27 + (100 * IZR n * (IZR n * eu) + 27 * eu)) * (B * B))%R by ring.
  rewrite plus_IZR. apply Rmult_le_compat_r; [nra|].
  assert (100 * IZR n * (IZR n * eu) <= 13 * IZR n)%R by nra. nra.
Qed.

Lemma ssd_merge n k x y p q : 1 <= n -> 1 <= k -> n + k <= 2 ^ 50 -> ssd_ok n x -> ssd_ok k y ->
  valid p -> fin p = true -> (0 <= FR p <= 27 * IZR n * (B * B))%R ->
  valid q -> fin q = true -> (0 <= FR q <= 27 * IZR k * (B * B))%R ->
  let s := fadd (fadd (fadd x y) p) q in
  ssd_ok (n + k) s /\ (FR x <= FR s)%R /\ (FR y <= FR s)%R.
Proof.
  intros Hn Hk Hnk (Vx & Fx & Hx) (Vy & Fy & Hy) Vp Fp Hp Vq Fq Hq s. pose proof Bp as HB0. pose proof eu_small as He.
  assert (1 <= IZR n)%R as HN by (apply IZR_le; lia). assert (1 <= IZR k)%R as HK by (apply IZR_le; lia).
  pose proof (count_eu (n + k) ltac:(lia)) as Hc. rewrite plus_IZR in Hc.
  assert (0 < B * B)%R as HBB by nra. unfold ssd_ok. rewrite plus_IZR.
  set (N := IZR n) in *. set (K := IZR k) in *. set (Q := (N * N + K * K)%R).
  assert (1 <= N * K)%R as HNK by nra. assert (N + K <= 2 * (N * K))%R as HNK2 by nra.
  assert ((N + K) * (N + K) = Q + 2 * (N * K))%R as HQ by (unfold Q; ring).
  assert (forall T z, (0 <= T <= 200 * ((N + K) * (N + K)))%R -> (z <= T * (B * B))%R -> (z <= bpow radix2 1000)%R) as Hfit.
  { intros T z. unfold N, K. rewrite <- plus_IZR. apply quad_fits. lia. }
  assert (1 <= Q)%R as HQ1 by (unfold Q; nra).
  assert (Q * eu <= (N + K) / 8)%R as HQe.
  { apply Rle_trans with ((N + K) * (N + K) * eu)%R; [apply Rmult_le_compat_r; lra|]. nra. }
  assert ((N + K) * eu <= / 8)%R as HNe by lra.
  destruct (add_nonneg x y (100 * Q * (B * B) - 100 * (K * K) * (B * B)) (100 * (K * K) * (B * B)) Vx Vy Fx Fy) as (V1 & F1 & L1 & L1' & U1).
  { unfold Q. split; [lra|]. lra. } { done. } { apply (Hfit (100 * Q)%R); [|lra]. split; [lra|]. lra. }
  set (s1 := fadd x y) in *.
  assert (0 <= FR s1 <= (100 * Q + 13 * (N + K)) * (B * B))%R as H1.
  { split; [lra|]. eapply Rle_trans; [exact U1|].
    replace ((100 * Q * (B * B) - 100 * (K * K) * (B * B) + 100 * (K * K) * (B * B)) * (1 + eu))%R
      with ((100 * Q + 100 * (Q * eu)) * (B * B))%R by ring.
    apply Rmult_le_compat_r; lra. }
  destruct (add_nonneg s1 p _ _ V1 Vp F1 Fp H1 Hp) as (V2 & F2 & L2 & _ & U2).
  { apply (Hfit (100 * Q + 13 * (N + K) + 27 * N)%R); [|lra]. split; [lra|]. nra. }
  set (s2 := fadd s1 p) in *.
  assert (0 <= FR s2 <= (100 * Q + 27 * (N + K) + 27 * N) * (B * B))%R as H2.
  { split; [lra|]. eapply Rle_trans; [exact U2|].
    replace (((100 * Q + 13 * (N + K)) * (B * B) + 27 * N * (B * B)) * (1 + eu))%R
      with ((100 * Q + 13 * (N + K) + 27 * N + 100 * (Q * eu) + (13 * ((N + K) * eu) + 27 * (N * eu))) * (B * B))%R by ring.
    apply Rmult_le_compat_r; [lra|]. assert (N * eu <= (N + K) * eu)%R by nra.
    assert (N * eu <= N / 1000000)%R by nra. assert ((N + K) * eu <= (N + K) / 1000000)%R by nra. lra. }
  destruct (add_nonneg s2 q _ _ V2 Vq F2 Fq H2 Hq) as (V3 & F3 & L3 & _ & U3).
  { apply (Hfit (100 * Q + 27 * (N + K) + 27 * N + 27 * K)%R); [|lra]. split; [lra|]. nra. }
  fold s in V3, F3, L3, U3.
  split; [|lra]. split; [done|]. split; [done|]. split; [lra|]. eapply Rle_trans; [exact U3|].
  replace (((100 * Q + 27 * (N + K) + 27 * N) * (B * B) + 27 * K * (B * B)) * (1 + eu))%R
    with ((100 * Q + 54 * (N + K) + 100 * (Q * eu) + 54 * ((N + K) * eu)) * (B * B))%R by ring.
  apply Rmult_le_compat_r; [lra|]. assert ((N + K) * eu <= (N + K) / 1000000)%R by nra. lra.
Qed.

Lemma ssd_ok_0 n : 1 <= n -> ssd_ok n (f_of_int 0).
Proof.
  intros Hn. split; [done|]. split; [done|]. change (FR (f_of_int 0)) with 0%R. pose proof Bp.
  assert (1 <= IZR n)%R by (apply IZR_le; lia). split; [lra|]. nra.
Qed.

(** The product that a further sample adds. *)
Lemma sample_product d l v s : d_count d = Z.of_nat (length l) -> moderate B (l ++ [v]) -> l <> [] -> mean_ok B l (d_mean d) ->
  UpdateGeneralStatistics b64 v (d_stats d) = Ok s ->
  let p := fmul (fsub v (d_mean d)) (fsub v (s_mean s)) in
  s_ssd s = fadd (d_ssd d) p /\ valid p /\ fin p = true /\ (0 <= FR p <= 27 * (B * B))%R.
Proof.
  intros Hc Hm Hl HM Hs. pose proof HB' as HB'. destruct (mean_add B d l v s HB' Hc Hm (fun _ => HM) Hs) as [HM' Hq].
  unfold UpdateGeneralStatistics in Hs. cbn [d_stats s_count] in Hs. destruct (Z.eqb_spec (d_count d) 0) as [E|E].
  - destruct l; [done|cbn [length] in Hc; lia].
  - specialize (Hq Hl). cbn [num b64] in Hq.
    destruct (add64 _ _ _) as [c1| | |] eqn:Ea; cbn [obind] in Hs; try discriminate.
    apply add64_strict in Ea as [-> _]. injection Hs as <-. cbn [s_mean s_ssd d_stats nint nadd nsub nmul ndiv b64] in *.
    rewrite Hc in *. set (n := Z.of_nat (length l)) in *. set (q := fdiv _ _) in *.
    destruct Hm as [Hm1 Hm2]. rewrite app_length, Nat2Z.inj_add in *. cbn [length] in *. change (Z.of_nat 1) with 1 in *.
    fold n in Hm2.
    assert (1 <= n) by (unfold n in *; lia).
    destruct (Hm1 v) as (Vv & Fv & Bv); [set_solver|]. apply fin_finite in Fv. rewrite real_FR in Bv.
    destruct HM as [HM (b & Fb & Eb)]. fold n in HM, Eb. destruct HM' as [HM' _].
    rewrite app_length, Nat2Z.inj_add in HM'. cbn [length] in HM'. change (Z.of_nat 1) with 1 in HM'. fold n in HM'.
    pose proof (near_bound B HB' n _ _ ltac:(lia) HM) as Bm. pose proof (near_bound B HB' (n + 1) _ _ ltac:(lia) HM') as Bq.
    destruct HM as (Vm & Fm & _), HM' as (Vq & Fq & _). pose proof Bp as HB0.
    destruct (diff v (d_mean d)) as (V1 & F1 & E1 & A1); [done..|lra|done|].
    destruct (diff v q) as (V2 & F2 & E2 & A2); [done..|lra|done|].
    destruct (toward n ltac:(lia) (FR (d_mean d)) (FR v) b Fb Eb (FR_format v Vv)) as [T1 T2]. rewrite <- Hq in T1, T2.
    assert (0 <= FR (fsub v (d_mean d)) * FR (fsub v q))%R as Hpos.
    { rewrite E1, E2. destruct (Rtotal_order (FR (d_mean d)) (FR v)) as [C|[C|C]].
      - apply Rmult_le_pos; apply rnd_ge0; [lra|]. specialize (T1 C). lra.
      - rewrite C. replace (FR v - FR v)%R with 0%R by ring. rewrite round_0 by typeclasses eauto. lra.
      - rewrite <- Rmult_opp_opp. specialize (T2 C).
        assert (rnd (FR v - FR (d_mean d)) <= 0)%R by (apply rnd_le0; lra).
        assert (rnd (FR v - FR q) <= 0)%R by (apply rnd_le0; lra). apply Rmult_le_pos; lra. }
    destruct (same_side (fsub v (d_mean d)) (fsub v q)) as (V3 & F3 & H3); [done..|].
    done.
Qed.

(** One more sample. *)
Lemma spread_add d l v s : d_count d = Z.of_nat (length l) -> moderate B (l ++ [v]) -> (l <> [] -> mean_ok B l (d_mean d)) ->
  (l <> [] -> ssd_ok (Z.of_nat (length l)) (d_ssd d)) ->
  UpdateGeneralStatistics b64 v (d_stats d) = Ok s ->
  ssd_ok (Z.of_nat (length (l ++ [v]))) (s_ssd s) /\ (l <> [] -> (FR (d_ssd d) <= FR (s_ssd s))%R).
Proof.
  intros Hc Hm HM IH Hs. destruct (Z.eqb_spec (d_count d) 0) as [E|E].
  - unfold UpdateGeneralStatistics in Hs. cbn [d_stats s_count] in Hs. rewrite E, Z.eqb_refl in Hs.
    injection Hs as <-. destruct l; [|cbn [length] in Hc; lia]. cbn [app s_ssd length]. split; [|done]. by apply ssd_ok_0.
  - assert (l <> []) as Hl by (intros ->; cbn in Hc; lia).
    destruct (sample_product d l v s Hc Hm Hl (HM Hl) Hs) as (-> & V & F & H).
    destruct Hm as [_ Hm]. rewrite app_length, Nat2Z.inj_add in *. cbn [length] in *. change (Z.of_nat 1) with 1 in *.
    destruct (ssd_add (Z.of_nat (length l)) (d_ssd d) _ ltac:(lia) ltac:(lia) (IH Hl) V F H) as [S1 S2]. by split.
Qed.

(** Another distribution. *)
Lemma spread_merge f lf d l s : d_count d = Z.of_nat (length l) -> d_count f = Z.of_nat (length lf) -> 0 < d_count d -> 0 < d_count f ->
  moderate B (l ++ lf) -> mean_ok B l (d_mean d) -> mean_ok B lf (d_mean f) ->
  ssd_ok (Z.of_nat (length l)) (d_ssd d) -> ssd_ok (Z.of_nat (length lf)) (d_ssd f) ->
  MergeStatistics b64 (d_stats f) (d_stats d) = Ok s ->
  ssd_ok (Z.of_nat (length (l ++ lf))) (s_ssd s) /\ (FR (d_ssd d) <= FR (s_ssd s))%R /\ (FR (d_ssd f) <= FR (s_ssd s))%R.
Proof.
  intros Hc Hcf Hd Hf Hm Md Mf Sd Sf Hs. pose proof HB' as HB'.
  pose proof (mean_merge B f lf d l s HB' Hc Hcf Hd Hf Hm Md Mf Hs) as Mq.
  destruct Hm as [_ Hm]. rewrite app_length, Nat2Z.inj_add in Hm.
  unfold MergeStatistics in Hs. destruct (add64 _ _ _) as [c1| | |] eqn:Ea; cbn [obind] in Hs; try discriminate.
  apply add64_strict in Ea as [-> _]. injection Hs as <-. cbn [s_mean s_ssd s_count d_stats nint nadd nsub nmul ndiv b64] in *.
  rewrite Hc, Hcf in *. rewrite app_length, Nat2Z.inj_add.
  set (n := Z.of_nat (length l)) in *. set (k := Z.of_nat (length lf)) in *. set (q := fdiv _ _) in *.
  destruct Md as [Md _], Mf as [Mf _], Mq as [Mq _]. fold n in Md. fold k in Mf.
  rewrite app_length, Nat2Z.inj_add in Mq. fold n k in Mq.
  pose proof (near_bound B HB' n _ _ ltac:(lia) Md) as Bd. pose proof (near_bound B HB' k _ _ ltac:(lia) Mf) as Bf.
  pose proof (near_bound B HB' (n + k) _ _ ltac:(lia) Mq) as Bq.
  destruct Md as (Vd & Fd & _), Mf as (Vf & Ff & _), Mq as (Vq & Fq & _).
  destruct (diff q (d_mean d)) as (V1 & F1 & _ & A1); [done..|].
  destruct (diff q (d_mean f)) as (V2 & F2 & _ & A2); [done..|].
  destruct (weighted_square n (fsub q (d_mean d))) as (V3 & F3 & H3); [lia|done..|].
  destruct (weighted_square k (fsub q (d_mean f))) as (V4 & F4 & H4); [lia|done..|].
  apply ssd_merge; try done; lia.
Qed.

Lemma built_spread log2 d l : built log2 d l -> moderate B l -> l <> [] -> ssd_ok (Z.of_nat (length l)) (d_ssd d).
Proof.
  pose proof HB' as HB'.
  induction 1 as [n g s d H|n w o d H|b d H|d l v d' Hb IH H|d l f lf d' Hd IHd Hf IHf H]; try done.
  - intros Hm _. apply AddSample_inv in H as [(_ & ? & _)|(_ & _ & s & i & b & Hs & Hb' & -> & _)]; [done|].
    cbn [set_buckets set_stats d_ssd]. pose proof (moderate_app _ _ _ Hm) as [Ml _].
    destruct (built_inv _ _ _ Hb) as (_ & _ & Hc & _).
    by apply (spread_add d l v s Hc Hm (built_mean B log2 d l HB' Hb Ml) (IH Ml) Hs).
  - intros Hm Hne. pose proof (moderate_app _ _ _ Hm) as [Ml Mf].
    destruct (built_inv _ _ _ Hd) as (_ & _ & Hc & _), (built_inv _ _ _ Hf) as (_ & _ & Hcf & _).
    apply Merge_inv in H as [(? & _)|(_ & _ & Hl & [(Hf0 & ->)|[(Hf0 & Ht0 & ->)|(Hf0 & Ht0 & s & Hs & ->)]])]; [done|..].
    + destruct lf; [|cbn [length] in Hcf; lia]. rewrite app_nil_r in *. auto.
    + destruct l; [|cbn [length] in Hc; lia]. cbn [app] in *. auto.
    + cbn [set_buckets set_stats d_ssd].
      assert (l <> []) by (intros ->; cbn in Hc; lia). assert (lf <> []) by (intros ->; cbn in Hcf; lia).
      apply (spread_merge f lf d l s); auto; by eapply built_mean.
Qed.
End ssd.

(** ** In the vocabulary of the specification *)
Lemma powerRZ_range B lo hi : (powerRZ 2 lo <= B <= powerRZ 2 hi)%R -> (bpow radix2 lo <= B <= bpow radix2 hi)%R.
Proof. rewrite !bpow_powerRZ. done. Qed.

Lemma mean_near B log2 d l : (powerRZ 2 (-1000) <= B <= powerRZ 2 900)%R -> built log2 d l -> moderate B l -> l <> [] ->
  is_double (d_mean d) /\ finite (d_mean d) /\
  (Rabs (real (d_mean d) - exact_mean l) <= IZR (Z.of_nat (length l) - 1) * B / 2 ^ 50)%R.
Proof.
  intros HB%powerRZ_range Hb Hm Hl. destruct (built_mean B log2 d l HB Hb Hm Hl) as [(V & F & _ & E) _].
  split; [done|]. split; [by apply fin_finite|]. rewrite real_FR. eapply Rle_trans; [exact E|].
  unfold Rdiv. rewrite (pow_bpow 50). change (- Z.of_nat 50) with (3 + -53). rewrite (bpow_plus radix2 3).
  change (bpow radix2 3) with 8%R. lra.
Qed.

Lemma not_beyond B log2 d l v d' : (powerRZ 2 (-1000) <= B <= powerRZ 2 900)%R -> built log2 d l -> moderate B (l ++ [v]) -> l <> [] ->
  AddSample log2 v d = Ok (SOk, d') ->
  ((real (d_mean d) < real v -> real (d_mean d') <= real v) /\ (real v < real (d_mean d) -> real v <= real (d_mean d')))%R.
Proof.
  intros HB%powerRZ_range Hb Hm Hl H. pose proof (moderate_app _ _ _ Hm) as [Ml _].
  apply AddSample_inv in H as [(_ & ? & _)|(_ & _ & s & i & b & Hs & Hb' & -> & _)]; [done|].
  cbn [set_buckets set_stats d_mean]. destruct (built_inv _ _ _ Hb) as (_ & _ & Hc & _).
  destruct (mean_add B d l v s HB Hc Hm (built_mean B log2 d l HB Hb Ml) Hs) as [_ Hq]. specialize (Hq Hl). cbn [num b64] in Hq.
  destruct (built_mean B log2 d l HB Hb Ml Hl) as [_ (c & Fc & Ec)].
  rewrite !real_FR, Hq. destruct Hm as [Hm1 Hm2]. rewrite app_length in Hm2. cbn [length] in Hm2.
  destruct (Hm1 v) as (Vv & _); [set_solver|].
  apply (toward _) with c; [|done|done|by apply FR_format]. destruct l; [done|cbn [length] in *; lia].
Qed.

Lemma built_nil log2 d l : built log2 d l -> l = [] -> d_ssd d = f_zero.
Proof.
  induction 1 as [n g s d H|n w o d H|b d H|d l v d' Hb IH H|d l f lf d' Hd IHd Hf IHf H]; intros El.
  - unfold InitExponential in H. destruct (n <=? 0); [discriminate|]. destruct (fle g _); [discriminate|].
    destruct (fle s _); [discriminate|]. destruct (add32 n 2); cbn [obind] in H; try discriminate. by injection H as <-.
  - unfold InitLinear in H. destruct (n <=? 0); [discriminate|]. destruct (fle w _); [discriminate|].
    destruct (add32 n 2); cbn [obind] in H; try discriminate. by injection H as <-.
  - unfold InitExplicit in H. destruct (negb _); [discriminate|]. destruct (has_adjacent_equal b); [discriminate|].
    by injection H as <-.
  - by destruct l.
  - apply app_eq_nil in El as [-> ->].
    destruct (built_inv _ _ _ Hd) as (_ & _ & Hc & _), (built_inv _ _ _ Hf) as (_ & _ & Hcf & _). cbn in Hc, Hcf.
    apply Merge_inv in H as [(? & _)|(_ & _ & Hl & [(Hf0 & ->)|[(Hf0 & Ht0 & ->)|(Hf0 & Ht0 & s & Hs & ->)]])]; [done|auto|auto|lia].
Qed.

Lemma spread_nonneg B log2 d l : (powerRZ 2 (-500) <= B <= powerRZ 2 400)%R -> built log2 d l -> moderate B l ->
  grown f_zero (d_ssd d).
Proof.
  intros HB%powerRZ_range Hb Hm. destruct l as [|x l'] eqn:El.
  - rewrite (built_nil log2 d [] Hb) by done. split; [done|]. split; [done|]. lra.
  - destruct (built_spread B HB log2 d _ Hb Hm ltac:(done)) as (V & F & P). split; [done|]. split; [by apply fin_finite|].
    rewrite !real_FR. change (FR f_zero) with 0%R. lra.
Qed.

Lemma spread_sample B log2 d l v d' : (powerRZ 2 (-500) <= B <= powerRZ 2 400)%R -> built log2 d l -> moderate B (l ++ [v]) ->
  AddSample log2 v d = Ok (SOk, d') -> grown (d_ssd d) (d_ssd d').
Proof.
  intros HB Hb Hm H. pose proof (moderate_app _ _ _ Hm) as [Ml _].
  pose proof (spread_nonneg B log2 d' (l ++ [v]) HB (built_sample _ _ _ _ _ Hb H) Hm) as (V & F & P).
  split; [done|]. split; [done|]. destruct l as [|x l'] eqn:El; [by rewrite (built_nil log2 d [] Hb)|].
  apply powerRZ_range in HB. pose proof (HB' B HB) as HB2.
  apply AddSample_inv in H as [(_ & ? & _)|(_ & _ & s & i & b & Hs & Hb' & -> & _)]; [done|].
  cbn [set_buckets set_stats d_ssd]. destruct (built_inv _ _ _ Hb) as (_ & _ & Hc & _).
  destruct (spread_add B HB d (x :: l') v s Hc Hm (built_mean B log2 d _ HB2 Hb Ml) (built_spread B HB log2 d _ Hb Ml) Hs) as [_ S].
  rewrite !real_FR. by apply S.
Qed.

Lemma spread_merged B log2 f lf d l d' : (powerRZ 2 (-500) <= B <= powerRZ 2 400)%R -> built log2 d l -> built log2 f lf ->
  moderate B (l ++ lf) -> Merge f d = Ok (SOk, d') -> grown (d_ssd d) (d_ssd d') /\ grown (d_ssd f) (d_ssd d').
Proof.
  intros HB Hd Hf Hm H. pose proof (moderate_app _ _ _ Hm) as [Ml Mf].
  pose proof (spread_nonneg B log2 d l HB Hd Ml) as Gd. pose proof (spread_nonneg B log2 f lf HB Hf Mf) as Gf.
  pose proof (spread_nonneg B log2 d' (l ++ lf) HB (built_merge _ _ _ _ _ _ Hd Hf H) Hm) as (V & F & P).
  destruct (built_inv _ _ _ Hd) as (_ & _ & Hc & _), (built_inv _ _ _ Hf) as (_ & _ & Hcf & _).
  unfold grown in *.
  apply Merge_inv in H as [(? & _)|(_ & _ & Hl & [(Hf0 & ->)|[(Hf0 & Ht0 & ->)|(Hf0 & Ht0 & s & Hs & ->)]])]; [done|..].
  - rewrite (built_nil log2 f lf Hf) by (destruct lf; [done|cbn [length] in Hcf; lia]). split; [|tauto].
    split; [done|]. split; [done|]. lra.
  - rewrite (built_nil log2 d l Hd) by (destruct l; [done|cbn [length] in Hc; lia]). split; [tauto|].
    split; [done|]. split; [done|]. lra.
  - apply powerRZ_range in HB. pose proof (HB' B HB) as HB2. cbn [set_buckets set_stats d_ssd] in *.
    assert (l <> []) by (intros ->; cbn in Hc; lia). assert (lf <> []) by (intros ->; cbn in Hcf; lia).
    destruct (spread_merge B HB f lf d l s) as (_ & S1 & S2); auto; try (by eapply built_mean); try (by eapply built_spread).
    rewrite !real_FR. tauto.
Qed.

(** ** Witnesses *)
(** The layout with the single bound 1. *)
Definition one_bound : distribution := set_buckets [0; 0] (set_option (BExplicit [f_one]) empty_distribution).
Definition after (v : double) (d : distribution) : distribution :=
  match AddSample (fun x => x) v d with Ok (_, d') => d' | _ => d end.

Lemma one_bound_built log2 : built log2 one_bound [].
Proof. apply (built_explicit _ [f_one]). reflexivity. Qed.
Lemma tenths_built log2 : built log2 (after f_tenth (after f_tenth (after f_tenth one_bound))) [f_tenth; f_tenth; f_tenth].
Proof.
  apply (built_sample _ (after f_tenth (after f_tenth one_bound)) [f_tenth; f_tenth]); [|vm_compute; reflexivity].
  apply (built_sample _ (after f_tenth one_bound) [f_tenth]); [|vm_compute; reflexivity].
  apply (built_sample _ one_bound []); [apply one_bound_built|vm_compute; reflexivity].
Qed.
Lemma large_built log2 : built log2 (after f_max (after f_max one_bound)) [f_max; f_max].
Proof.
  apply (built_sample _ (after f_max one_bound) [f_max]); [|vm_compute; reflexivity].
  apply (built_sample _ one_bound []); [apply one_bound_built|vm_compute; reflexivity].
Qed.
Lemma one_in_range : (powerRZ 2 (-1000) <= 1 <= powerRZ 2 900)%R /\ (powerRZ 2 (-500) <= 1 <= powerRZ 2 400)%R.
Proof.
  change 2%R with (IZR radix2). rewrite <- !bpow_powerRZ. change 1%R with (bpow radix2 0). repeat split; apply bpow_le; lia.
Qed.
Lemma tenths_moderate : moderate 1 [f_tenth; f_tenth; f_tenth].
Proof.
  split; [|cbn [length]; lia]. intros x Hx. assert (x = f_tenth) as -> by set_solver.
  split; [reflexivity|]. split; [exact I|]. unfold real, f_tenth. change 2%R with (IZR radix2). rewrite <- bpow_powerRZ.
  rewrite Rmult_1_l, Rabs_mult, (Rabs_pos_eq (bpow radix2 (-56))) by apply bpow_ge_0.
  rewrite Rabs_pos_eq by (apply IZR_le; lia).
  apply Rle_trans with (IZR (2 ^ 56) * bpow radix2 (-56))%R.
  - apply Rmult_le_compat_r; [apply bpow_ge_0|]. apply IZR_le. lia.
  - rewrite (IZR_Zpower radix2), <- bpow_plus by lia. change (bpow radix2 (56 + -56)) with 1%R. lra.
Qed.
