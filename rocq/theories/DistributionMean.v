(** How far the running mean of doubles is from the exact mean. *)
From Coq Require Import Reals Lra.
From Flocq Require Import Core.Core IEEE754.BinarySingleNaN.
From Verif Require Import Proto Distribution DistributionSpec DistributionRSpec DistributionProofs Float64Proofs DistributionLinear DistributionMeanSpec DistributionSpread.
Open Scope Z_scope.

#[local] Existing Instance Float64Proofs.Hprec.
#[local] Existing Instance Float64Proofs.Hmax.
#[local] Instance fx_valid : Valid_exp fx.
Proof. apply (fexp_correct 53 1024). done. Qed.
#[local] Instance rnd_valid : Valid_rnd (round_mode mode_NE).
Proof. apply valid_rnd_round_mode. Qed.

Lemma fadd_small x y : valid x -> valid y -> fin x = true -> fin y = true ->
  (Rabs (rnd (FR x + FR y)) < bpow radix2 1024)%R ->
  fin (fadd x y) = true /\ FR (fadd x y) = rnd (FR x + FR y)%R.
Proof.
  intros (a & <-)%to_bin (b & <-)%to_bin. rewrite fadd_B, !fin_B, !FR_B. intros Fa Fb H.
  pose proof (Bplus_correct 53 1024 _ _ mode_NE a b Fa Fb) as C.
  rewrite Rlt_bool_true in C by done. destruct C as (C1 & C2 & _). done.
Qed.
Lemma fmul_small x y : valid x -> valid y -> fin x = true -> fin y = true ->
  (Rabs (rnd (FR x * FR y)) < bpow radix2 1024)%R ->
  fin (fmul x y) = true /\ FR (fmul x y) = rnd (FR x * FR y)%R.
Proof.
  intros (a & <-)%to_bin (b & <-)%to_bin. rewrite fmul_B, !fin_B, !FR_B. intros Fa Fb H.
  pose proof (Bmult_correct 53 1024 _ _ mode_NE a b) as C.
  rewrite Rlt_bool_true in C by done. destruct C as (C1 & C2 & _). split; [|done]. by rewrite C2, Fa, Fb.
Qed.

(** A number of at most 2^1000 does not overflow when it is rounded. *)
Lemma rnd_bounded z : (Rabs z <= bpow radix2 1000)%R -> (Rabs (rnd z) < bpow radix2 1024)%R.
Proof.
  intros H. apply Rle_lt_trans with (bpow radix2 1000); [|apply bpow_lt; lia].
  apply abs_round_le_generic; [typeclasses eauto..| |done].
  apply generic_format_bpow. by vm_compute.
Qed.

(** The unit in which the error is counted. *)
Notation eu := (bpow radix2 (-53)).
Lemma eu_small : (0 < eu <= / 1000000)%R.
Proof.
  split; [apply bpow_gt_0|]. apply Rle_trans with (bpow radix2 (-20)); [apply bpow_le; lia|].
  change (bpow radix2 (-20)) with (/ 1048576)%R. lra.
Qed.

Section step.
Context (B : R) (HB : (bpow radix2 (-1000) <= B <= bpow radix2 900)%R).

Lemma B_pos : (0 < B)%R.
Proof. pose proof (bpow_gt_0 radix2 (-1000)). lra. Qed.

Lemma tiny_B : (bpow radix2 (-1075) <= eu * B)%R.
Proof.
  apply Rle_trans with (eu * bpow radix2 (-1000))%R.
  - rewrite <- bpow_plus. apply bpow_le. lia.
  - apply Rmult_le_compat_l; [apply bpow_ge_0|tauto].
Qed.

Lemma not_overflow T z : (0 <= T <= IZR (2 ^ 50))%R -> (Rabs z <= 8 * B * T)%R -> (Rabs (rnd z) < bpow radix2 1024)%R.
Proof.
  intros HT Hz. apply rnd_bounded. eapply Rle_trans; [exact Hz|].
  apply Rle_trans with (bpow radix2 3 * bpow radix2 900 * bpow radix2 50)%R; [|rewrite <- !bpow_plus; apply bpow_le; lia].
  rewrite (IZR_Zpower radix2) in HT by lia. pose proof B_pos.
  apply Rmult_le_compat; [nra|tauto| |tauto]. apply Rmult_le_compat; [lra|lra| |tauto]. change (bpow radix2 3) with 8%R. lra.
Qed.

(** The weighted mean of two numbers as the code computes it. *)
Lemma mean_step n k x y p2 : 1 <= n -> 1 <= k -> n + k <= 2 ^ 50 ->
  valid x -> fin x = true -> (Rabs (FR x) <= 2 * B)%R -> (Rabs y <= 2 * B)%R ->
  valid p2 -> fin p2 = true -> (Rabs (FR p2 - IZR k * y) <= 2 * B * IZR k * eu)%R ->
  let q := fdiv (fadd (fmul (f_of_int n) x) p2) (f_of_int (n + k)) in
  valid q /\ fin q = true /\ FR q = rnd (rnd (rnd (IZR n * FR x) + FR p2) / IZR (n + k)) /\
  (Rabs (FR q - (IZR n * FR x + IZR k * y) / IZR (n + k)) <= 8 * eu * B)%R.
Proof.
  intros Hn Hk Hnk Vx Fx Bx By Vp2 Fp2 Ep2. cbn zeta.
  pose proof eu_small as He. pose proof B_pos as HB0. pose proof tiny_B as Ht.
  destruct (f_of_int_spec n) as (Vn & Fn & Rn); [lia|].
  destruct (f_of_int_spec (n + k)) as (Vt & Ft & Rt); [lia|].
  assert (1 <= IZR n)%R as HN by (apply IZR_le; lia). assert (1 <= IZR k)%R as HK by (apply IZR_le; lia).
  assert (IZR n + IZR k <= IZR (2 ^ 50))%R as HT by (rewrite <- plus_IZR; apply IZR_le; lia).
  rewrite plus_IZR. rewrite plus_IZR in Rt.
  pose proof (rel_mul n x Vx) as R1.
  assert (Rabs (IZR n * FR x) <= 2 * B * IZR n)%R as A1.
  { rewrite Rabs_mult, (Rabs_pos_eq (IZR n)) by lra. nra. }
  destruct (fmul_small (f_of_int n) x) as [F1 E1]; [done..| |].
  { rewrite Rn. apply (not_overflow (IZR n)); [lra|nra]. }
  set (p1 := fmul (f_of_int n) x) in *. assert (valid p1) as Vp1 by (by apply fmul_valid).
  rewrite Rn in E1. rewrite <- E1 in R1.
  assert (Rabs (FR p1 - IZR n * FR x) <= 2 * B * IZR n * eu)%R as D1 by nra.
  assert (Rabs (IZR k * y) <= 2 * B * IZR k)%R as A2.
  { rewrite Rabs_mult, (Rabs_pos_eq (IZR k)) by lra. nra. }
  set (T := (IZR n + IZR k)%R) in *.
  set (S := (IZR n * FR x + IZR k * y)%R).
  assert (Rabs S <= 2 * B * T)%R as AS.
  { unfold S, T. eapply Rle_trans; [apply Rabs_triang|]. lra. }
  assert (Rabs (FR p1 + FR p2 - S) <= 2 * B * T * eu)%R as DS.
  { unfold S, T. replace (FR p1 + FR p2 - (IZR n * FR x + IZR k * y))%R
      with ((FR p1 - IZR n * FR x) + (FR p2 - IZR k * y))%R by ring.
    eapply Rle_trans; [apply Rabs_triang|]. lra. }
  assert (2 <= T)%R as HT2 by (unfold T; lra).
  assert (Rabs (FR p1 + FR p2) <= 2 * B * T * (1 + eu))%R as AP.
  { replace (FR p1 + FR p2)%R with (S + (FR p1 + FR p2 - S))%R by ring.
    eapply Rle_trans; [apply Rabs_triang|]. lra. }
  assert (0 <= B * T)%R as HBT by nra.
  assert (0 <= B * T * eu <= B * T * / 1000000)%R as HBTe by nra.
  pose proof (rel_add p1 p2 Vp1 Vp2) as R2.
  destruct (fadd_small p1 p2) as [F2 E2]; [done..| |].
  { apply (not_overflow T); [lra|]. nra. }
  set (s := fadd p1 p2) in *. assert (valid s) as Vs by (by apply fadd_valid).
  rewrite <- E2 in R2.
  assert (Rabs (FR s - S) <= 9 / 2 * B * T * eu)%R as DSs.
  { replace (FR s - S)%R with ((FR s - (FR p1 + FR p2)) + (FR p1 + FR p2 - S))%R by ring.
    eapply Rle_trans; [apply Rabs_triang|].
    assert (Rabs (FR p1 + FR p2) * eu <= 5 / 2 * B * T * eu)%R by nra. lra. }
  assert (Rabs (FR s / T - S / T) <= 9 / 2 * B * eu)%R as Dq.
  { replace (FR s / T - S / T)%R with ((FR s - S) / T)%R by (field; lra).
    unfold Rdiv. rewrite Rabs_mult, (Rabs_pos_eq (/ T)) by (apply Rlt_le, Rinv_0_lt_compat; lra).
    apply Rmult_le_reg_r with T; [lra|]. rewrite Rmult_assoc, Rinv_l, Rmult_1_r by lra. lra. }
  assert (Rabs (S / T) <= 2 * B)%R as AST.
  { unfold Rdiv. rewrite Rabs_mult, (Rabs_pos_eq (/ T)) by (apply Rlt_le, Rinv_0_lt_compat; lra).
    apply Rmult_le_reg_r with T; [lra|]. rewrite Rmult_assoc, Rinv_l, Rmult_1_r by lra. lra. }
  assert (0 <= B * eu <= B * / 1000000)%R as HBe by nra.
  assert (Rabs (FR s / T) <= 2 * B + 9 / 2 * B * eu)%R as Aq.
  { replace (FR s / T)%R with (S / T + (FR s / T - S / T))%R by ring.
    eapply Rle_trans; [apply Rabs_triang|]. lra. }
  pose proof (rel_abs (FR s / T)) as R3.
  destruct (fdiv_small s (f_of_int (n + k))) as [F3 E3]; [done..| | |].
  { rewrite Rt. lra. }
  { rewrite Rt. apply (not_overflow T); [lra|]. nra. }
  rewrite Rt in E3. split; [by apply fdiv_valid|]. split; [done|].
  split; [by rewrite E3, E2, E1|]. rewrite E3.
  replace (rnd (FR s / T) - S / T)%R with ((rnd (FR s / T) - FR s / T) + (FR s / T - S / T))%R by ring.
  eapply Rle_trans; [apply Rabs_triang|].
  assert (Rabs (FR s / T) * eu <= 9 / 4 * B * eu)%R by (apply Rmult_le_compat_r; lra).
  lra.
Qed.

(** The mean of [n] samples is [M]; the computed one may be off by [n - 1] steps. *)
Definition near (n : Z) (M : R) (x : double) : Prop :=
  valid x /\ fin x = true /\ (Rabs M <= B)%R /\ (Rabs (FR x - M) <= IZR (n - 1) * (8 * eu * B))%R.

Lemma near_bound n M x : 1 <= n <= 2 ^ 50 -> near n M x -> (Rabs (FR x) <= 2 * B)%R.
Proof.
  intros Hn (_ & _ & HM & HD). replace (FR x) with (M + (FR x - M))%R by ring.
  eapply Rle_trans; [apply Rabs_triang|]. pose proof B_pos.
  assert (IZR (n - 1) * (8 * eu * B) <= B)%R; [|lra].
  assert (IZR (n - 1) * eu <= / 8)%R.
  { apply Rle_trans with (IZR (2 ^ 50) * eu)%R.
    - apply Rmult_le_compat_r; [apply bpow_ge_0|]. apply IZR_le. lia.
    - rewrite (IZR_Zpower radix2), <- bpow_plus by lia. change (bpow radix2 (50 + -53)) with (/ 8)%R. lra. }
  nra.
Qed.

Lemma near_merge n k M M' x x' p2 : 1 <= n -> 1 <= k -> n + k <= 2 ^ 50 -> near n M x -> near k M' x' ->
  valid p2 -> fin p2 = true -> (Rabs (FR p2 - IZR k * FR x') <= 2 * B * IZR k * eu)%R ->
  near (n + k) ((IZR n * M + IZR k * M') / IZR (n + k))
    (fdiv (fadd (fmul (f_of_int n) x) p2) (f_of_int (n + k))).
Proof.
  intros Hn Hk Hnk N1 N2 Vp Fp Ep.
  pose proof (near_bound n M x ltac:(lia) N1) as B1. pose proof (near_bound k M' x' ltac:(lia) N2) as B2.
  destruct N1 as (Vx & Fx & HM & HD), N2 as (Vx' & Fx' & HM' & HD').
  destruct (mean_step n k x (FR x') p2) as (Vq & Fq & _ & Eq); [done..|]. cbn zeta in Eq.
  pose proof B_pos as HB0. pose proof eu_small as He.
  assert (1 <= IZR n)%R as HN by (apply IZR_le; lia). assert (1 <= IZR k)%R as HK by (apply IZR_le; lia).
  rewrite minus_IZR in HD, HD'. unfold near. rewrite minus_IZR, plus_IZR. rewrite plus_IZR in Eq.
  set (q := fdiv _ _) in *. set (N := IZR n) in *. set (K := IZR k) in *. set (T := (N + K)%R) in *.
  assert (2 <= T)%R by (unfold T; lra).
  assert (forall a z, (0 < a)%R -> (Rabs z <= a * T)%R -> (Rabs (z / T) <= a)%R) as Hdiv.
  { intros a z Ha Hz. unfold Rdiv. rewrite Rabs_mult, (Rabs_pos_eq (/ T)) by (apply Rlt_le, Rinv_0_lt_compat; lra).
    apply Rmult_le_reg_r with T; [lra|]. rewrite Rmult_assoc, Rinv_l, Rmult_1_r by lra. lra. }
  split; [done|]. split; [done|]. split.
  - apply Hdiv; [done|]. eapply Rle_trans; [apply Rabs_triang|].
    rewrite !Rabs_mult, (Rabs_pos_eq N), (Rabs_pos_eq K) by lra. unfold T. nra.
  - set (th := (8 * eu * B)%R) in *. assert (0 < th)%R by (unfold th; nra).
    replace (FR q - (N * M + K * M') / T)%R
      with ((FR q - (N * FR x + K * FR x') / T) + (N * (FR x - M) + K * (FR x' - M')) / T)%R by (field; lra).
    eapply Rle_trans; [apply Rabs_triang|].
    assert (Rabs ((N * (FR x - M) + K * (FR x' - M')) / T) <= (T - 2) * th)%R; [|lra].
    destruct (Req_dec T 2) as [ET|NT].
    + assert (N = 1 /\ K = 1)%R as [EN EK] by (unfold T in ET; lra). rewrite EN in *. rewrite EK in *.
      assert (FR x - M = 0 /\ FR x' - M' = 0)%R as [E1 E2].
      { split.
        - destruct (Req_dec (FR x - M) 0) as [|Z]; [done|]. apply Rabs_pos_lt in Z. lra.
        - destruct (Req_dec (FR x' - M') 0) as [|Z]; [done|]. apply Rabs_pos_lt in Z. lra. }
      rewrite E1, E2, ET. replace ((1 * 0 + 1 * 0) / 2)%R with 0%R by field. rewrite Rabs_R0. lra.
    + apply Hdiv; [apply Rmult_lt_0_compat; lra|].
      eapply Rle_trans; [apply Rabs_triang|].
      rewrite !Rabs_mult, (Rabs_pos_eq N), (Rabs_pos_eq K) by lra.
      assert (N * Rabs (FR x - M) <= N * ((N - 1) * th))%R by (apply Rmult_le_compat_l; lra).
      assert (K * Rabs (FR x' - M') <= K * ((K - 1) * th))%R by (apply Rmult_le_compat_l; lra).
      assert (N * ((N - 1) * th) + K * ((K - 1) * th) <= (T - 2) * th * T)%R; [|lra].
      replace (N * ((N - 1) * th) + K * ((K - 1) * th))%R with ((N * (N - 1) + K * (K - 1)) * th)%R by ring.
      replace ((T - 2) * th * T)%R with ((T - 2) * T * th)%R by ring.
      apply Rmult_le_compat_r; [lra|]. unfold T. nra.
Qed.
End step.

(** ** Along any history *)
Lemma exact_sum_app l l' : exact_sum (l ++ l') = (exact_sum l + exact_sum l')%R.
Proof. unfold exact_sum. induction l as [|x l IH]; cbn [app foldr]; [ring|]. rewrite IH. ring. Qed.
Lemma exact_mean_app l l' : l <> [] -> l' <> [] ->
  exact_mean (l ++ l') = ((IZR (Z.of_nat (length l)) * exact_mean l + IZR (Z.of_nat (length l')) * exact_mean l')
    / IZR (Z.of_nat (length l) + Z.of_nat (length l')))%R.
Proof.
  intros H H'. unfold exact_mean. rewrite exact_sum_app, app_length, Nat2Z.inj_add.
  destruct l as [|x l]; [done|]. destruct l' as [|y l']; [done|]. cbn [length].
  rewrite !Nat2Z.inj_succ. rewrite plus_IZR, !succ_IZR.
  assert (0 <= IZR (Z.of_nat (length l)))%R by (apply IZR_le; lia).
  assert (0 <= IZR (Z.of_nat (length l')))%R by (apply IZR_le; lia).
  field. lra.
Qed.
Lemma exact_mean_one x : exact_mean [x] = FR x.
Proof. unfold exact_mean, exact_sum. cbn [length foldr]. rewrite real_FR. change (Z.of_nat 1) with 1. field. Qed.

Lemma moderate_app B l l' : moderate B (l ++ l') -> moderate B l /\ moderate B l'.
Proof.
  intros [H1 H2]. rewrite app_length in H2. split; (split; [|lia]); intros x Hx; apply H1, elem_of_app; auto.
Qed.

Lemma near_merge_fmul B n k M M' x x' : (bpow radix2 (-1000) <= B <= bpow radix2 900)%R ->
  1 <= n -> 1 <= k -> n + k <= 2 ^ 50 -> near B n M x -> near B k M' x' ->
  let p := fmul (f_of_int k) x' in
  valid p /\ fin p = true /\ FR p = rnd (IZR k * FR x') /\ (Rabs (FR p - IZR k * FR x') <= 2 * B * IZR k * eu)%R.
Proof.
  intros HB Hn Hk Hnk N1 N2 p.
  pose proof (near_bound B HB k M' x' ltac:(lia) N2) as Bx. destruct N2 as (Vx & Fx & _).
  destruct (f_of_int_spec k) as (Vk & Fk & Rk); [lia|].
  assert (1 <= IZR k)%R as HK by (apply IZR_le; lia). pose proof (B_pos B HB).
  assert (IZR k <= IZR (2 ^ 50))%R by (apply IZR_le; lia).
  assert (Rabs (IZR k * FR x') <= 2 * B * IZR k)%R as A.
  { rewrite Rabs_mult, (Rabs_pos_eq (IZR k)) by lra. nra. }
  destruct (fmul_small (f_of_int k) x') as [F E]; [done..| |].
  { rewrite Rk. apply (not_overflow B HB (IZR k)); [lra|nra]. }
  split; [by apply fmul_valid|]. split; [done|]. rewrite Rk in E. fold p in E. split; [done|].
  rewrite E. eapply Rle_trans; [by apply rel_mul|]. apply Rmult_le_compat_r; [apply bpow_ge_0|done].
Qed.

(** What is known of the mean after [n] samples. *)
Definition mean_ok (B : R) (l : list double) (x : double) : Prop :=
  let n := Z.of_nat (length l) in
  near B n (exact_mean l) x /\ exists b, fmt b /\ FR x = rnd (b / IZR n).

Lemma mean_ok_one B v : moderate B [v] -> mean_ok B [v] v.
Proof.
  intros [H _]. destruct (H v) as (Vv & Fv & Bv); [set_solver|]. apply fin_finite in Fv. rewrite real_FR in Bv.
  unfold mean_ok. cbn [length]. change (Z.of_nat 1) with 1. rewrite exact_mean_one. split.
  - split; [done|]. split; [done|]. split; [done|]. replace (FR v - FR v)%R with 0%R by ring. rewrite Rabs_R0.
    change (1 - 1)%Z with 0. lra.
  - exists (FR v). split; [by apply FR_format|]. unfold Rdiv. rewrite Rinv_1, Rmult_1_r. symmetry. by apply rnd_id, FR_format.
Qed.

Lemma mean_ok_merge B l l' x x' p2 : (bpow radix2 (-1000) <= B <= bpow radix2 900)%R -> l <> [] -> l' <> [] ->
  Z.of_nat (length l) + Z.of_nat (length l') <= 2 ^ 50 -> mean_ok B l x -> mean_ok B l' x' ->
  valid p2 -> fin p2 = true ->
  (Rabs (FR p2 - IZR (Z.of_nat (length l')) * FR x') <= 2 * B * IZR (Z.of_nat (length l')) * eu)%R ->
  let n := Z.of_nat (length l) in let k := Z.of_nat (length l') in
  let q := fdiv (fadd (fmul (f_of_int n) x) p2) (f_of_int (n + k)) in
  mean_ok B (l ++ l') q /\ FR q = rnd (rnd (rnd (IZR n * FR x) + FR p2) / IZR (n + k)).
Proof.
  intros HB Hl Hl' Hlen [N1 _] [N2 _] Vp Fp Ep n k q.
  assert (1 <= n) by (destruct l; [done|unfold n; cbn [length]; lia]).
  assert (1 <= k) by (destruct l'; [done|unfold k; cbn [length]; lia]).
  fold n in N1, Hlen. fold k in N2, Ep, Hlen.
  pose proof (near_merge B HB n k _ _ x x' p2 ltac:(done) ltac:(done) Hlen N1 N2 Vp Fp Ep) as Nq. fold q in Nq.
  destruct (mean_step B HB n k x (FR x') p2) as (_ & _ & Eq & _); try done.
  { by apply N1. } { by apply N1. } { by apply (near_bound B HB n (exact_mean l)); [lia|]. }
  { by apply (near_bound B HB k (exact_mean l')); [lia|]. }
  fold q in Eq. split; [|done]. unfold mean_ok. rewrite app_length, Nat2Z.inj_add. fold n k. split.
  - rewrite exact_mean_app by done. exact Nq.
  - eexists. split; [|exact Eq]. apply rnd_fmt.
Qed.

Lemma mean_add B d l v s : (bpow radix2 (-1000) <= B <= bpow radix2 900)%R ->
  d_count d = Z.of_nat (length l) -> moderate B (l ++ [v]) -> (l <> [] -> mean_ok B l (d_mean d)) ->
  UpdateGeneralStatistics b64 v (d_stats d) = Ok s -> mean_ok B (l ++ [v]) (s_mean s) /\
  (l <> [] -> FR (s_mean s) = rnd (rnd (rnd (IZR (Z.of_nat (length l)) * FR (d_mean d)) + FR v) / IZR (Z.of_nat (length l) + 1))).
Proof.
  intros HB Hc Hm IH Hs. pose proof (moderate_app B l [v] Hm) as [Ml Mv].
  unfold UpdateGeneralStatistics in Hs. cbn [d_stats s_count] in Hs. destruct (Z.eqb_spec (d_count d) 0) as [E|E].
  - injection Hs as <-. destruct l; [|cbn [length] in Hc; lia]. cbn [app s_mean]. split; [|done]. by apply mean_ok_one.
  - assert (l <> []) as Hl by (intros ->; cbn in Hc; lia). specialize (IH Hl).
    destruct (add64 _ _ _) as [c1| | |] eqn:Ea; cbn [obind] in Hs; try discriminate.
    apply add64_strict in Ea as [-> _]. injection Hs as <-. cbn [s_mean d_stats nint nadd nmul ndiv b64]. rewrite Hc.
    pose proof (mean_ok_one B v Mv) as Hv. destruct Hm as [Hm1 Hm2]. rewrite app_length in Hm2. cbn [length] in Hm2.
    destruct (Hm1 v) as (Vv & Fv & _); [set_solver|]. apply fin_finite in Fv.
    destruct (mean_ok_merge B l [v] (d_mean d) v v) as [A1 A2]; try done.
    { cbn [length]. lia. }
    { cbn [length]. change (Z.of_nat 1) with 1. replace (FR v - 1 * FR v)%R with 0%R by ring. rewrite Rabs_R0.
      pose proof (B_pos B HB). pose proof (eu_small). nra. }
Qed.

Lemma mean_merge B f lf d l s : (bpow radix2 (-1000) <= B <= bpow radix2 900)%R ->
  d_count d = Z.of_nat (length l) -> d_count f = Z.of_nat (length lf) -> 0 < d_count d -> 0 < d_count f ->
  moderate B (l ++ lf) -> mean_ok B l (d_mean d) -> mean_ok B lf (d_mean f) ->
  MergeStatistics b64 (d_stats f) (d_stats d) = Ok s -> mean_ok B (l ++ lf) (s_mean s).
Proof.
  intros HB Hc Hcf Hd Hf [_ Hm] IHd IHf Hs. rewrite app_length in Hm.
  unfold MergeStatistics in Hs. destruct (add64 _ _ _) as [c1| | |] eqn:Ea; cbn [obind] in Hs; try discriminate.
  apply add64_strict in Ea as [-> _]. injection Hs as <-. cbn [s_mean s_count d_stats nint nadd nmul ndiv b64]. rewrite Hc, Hcf.
  destruct (near_merge_fmul B (Z.of_nat (length l)) (Z.of_nat (length lf)) (exact_mean l) (exact_mean lf) (d_mean d) (d_mean f))
    as (V & F & _ & E); try lia; [done|by destruct IHd|by destruct IHf|].
  destruct (mean_ok_merge B l lf (d_mean d) (d_mean f) (fmul (f_of_int (Z.of_nat (length lf))) (d_mean f))) as [A _]; try done.
  - intros ->. cbn in Hc. lia.
  - intros ->. cbn in Hcf. lia.
  - lia.
Qed.

Lemma built_mean B log2 d l : (bpow radix2 (-1000) <= B <= bpow radix2 900)%R -> built log2 d l -> moderate B l -> l <> [] ->
  mean_ok B l (d_mean d).
Proof.
  intros HB. induction 1 as [n g s d H|n w o d H|b d H|d l v d' Hb IH H|d l f lf d' Hd IHd Hf IHf H]; try done.
  - intros Hm _. apply AddSample_inv in H as [(_ & ? & _)|(_ & _ & s & i & b & Hs & Hb' & -> & _)]; [done|].
    cbn [set_buckets set_stats d_mean].
    destruct (built_inv _ _ _ Hb) as (_ & _ & Hc & _).
    by apply (mean_add B d l v s HB Hc Hm (IH (proj1 (moderate_app _ _ _ Hm)))).
  - intros Hm Hne. pose proof (moderate_app _ _ _ Hm) as [Ml Mf].
    destruct (built_inv _ _ _ Hd) as (_ & _ & Hc & _), (built_inv _ _ _ Hf) as (_ & _ & Hcf & _).
    apply Merge_inv in H as [(? & _)|(_ & _ & Hl & [(Hf0 & ->)|[(Hf0 & Ht0 & ->)|(Hf0 & Ht0 & s & Hs & ->)]])]; [done|..].
    + destruct lf; [|cbn [length] in Hcf; lia]. rewrite app_nil_r in *. auto.
    + destruct l; [|cbn [length] in Hc; lia]. cbn [app] in *. auto.
    + cbn [set_buckets set_stats d_mean]. apply (mean_merge B f lf d l s); try done.
      * apply IHd; [done|]. intros ->. cbn in Hc. lia.
      * apply IHf; [done|]. intros ->. cbn in Hcf. lia.
Qed.
