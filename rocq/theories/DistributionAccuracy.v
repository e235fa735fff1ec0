(** How far the sum of squared deviations of doubles is from the exact one. *)
From Coq Require Import Reals Lra.
From Flocq Require Import Core.Core IEEE754.BinarySingleNaN.
From Verif Require Import Proto Distribution DistributionSpec DistributionRSpec DistributionProofs Float64Proofs DistributionLinear
  DistributionMeanSpec DistributionSpread DistributionMean DistributionSsd.
Open Scope Z_scope.

(** ** The exact value *)
Definition sum_sq (l : list double) : R := foldr (fun x s => (FR x * FR x + s)%R) 0%R l.
Lemma sum_sq_app l l' : sum_sq (l ++ l') = (sum_sq l + sum_sq l')%R.
Proof. unfold sum_sq. induction l as [|x l IH]; cbn [app foldr]; [ring|]. rewrite IH. ring. Qed.
Lemma ssd_around m l : foldr (fun x s => ((real x - m) * (real x - m) + s)%R) 0%R l =
  (sum_sq l - 2 * m * exact_sum l + IZR (Z.of_nat (length l)) * (m * m))%R.
Proof.
  unfold sum_sq, exact_sum. induction l as [|x l IH]; cbn [foldr length]; [change (Z.of_nat 0) with 0; ring|].
  rewrite IH, Nat2Z.inj_succ, succ_IZR, real_FR. ring.
Qed.
Lemma count_pos (l : list double) : l <> [] -> (1 <= IZR (Z.of_nat (length l)))%R.
Proof. intros H. apply IZR_le. destruct l; [done|cbn [length]; lia]. Qed.
Lemma exact_ssd_eq l : l <> [] -> exact_ssd l = (sum_sq l - IZR (Z.of_nat (length l)) * (exact_mean l * exact_mean l))%R.
Proof.
  intros H. unfold exact_ssd. rewrite ssd_around. pose proof (count_pos l H). 
  replace (exact_sum l) with (IZR (Z.of_nat (length l)) * exact_mean l)%R by (unfold exact_mean; field; lra). ring.
Qed.
Lemma exact_ssd_app l l' : l <> [] -> l' <> [] ->
  exact_ssd (l ++ l') = (exact_ssd l + exact_ssd l' +
    IZR (Z.of_nat (length l)) * ((exact_mean (l ++ l') - exact_mean l) * (exact_mean (l ++ l') - exact_mean l)) +
    IZR (Z.of_nat (length l')) * ((exact_mean (l ++ l') - exact_mean l') * (exact_mean (l ++ l') - exact_mean l')))%R.
Proof.
  intros H H'. rewrite !exact_ssd_eq by (destruct l, l'; done). rewrite sum_sq_app, exact_mean_app, app_length, Nat2Z.inj_add, plus_IZR by done.
  pose proof (count_pos l H). pose proof (count_pos l' H'). field. lra.
Qed.
Lemma exact_ssd_one v : exact_ssd [v] = 0%R.
Proof. unfold exact_ssd. cbn [foldr]. rewrite exact_mean_one, real_FR. ring. Qed.
Lemma exact_ssd_snoc l v : l <> [] ->
  exact_ssd (l ++ [v]) = (exact_ssd l + (FR v - exact_mean l) * (FR v - exact_mean (l ++ [v])))%R.
Proof.
  intros H. rewrite exact_ssd_app, exact_ssd_one, exact_mean_app, exact_mean_one by done. cbn [length]. change (Z.of_nat 1) with 1. rewrite plus_IZR.
  pose proof (count_pos l H). field. lra.
Qed.
Lemma exact_ssd_bound B l : l <> [] -> (forall x, x ∈ l -> Rabs (FR x) <= B)%R -> (0 <= exact_ssd l <= IZR (Z.of_nat (length l)) * (B * B))%R.
Proof.
  intros H HB. split.
  - unfold exact_ssd. generalize (exact_mean l). intros m. clear H HB. induction l as [|x l IH]; cbn [foldr]; [lra|].
    pose proof (Rle_0_sqr (real x - m)) as H. unfold Rsqr in H. lra.
  - rewrite exact_ssd_eq by done. pose proof (count_pos l H). assert (0 <= exact_mean l * exact_mean l)%R by nra.
    assert (sum_sq l <= IZR (Z.of_nat (length l)) * (B * B))%R; [|nra]. clear H H0 H1. unfold sum_sq. induction l as [|x l IH]; cbn [foldr length]; [change (Z.of_nat 0) with 0; lra|].
    rewrite Nat2Z.inj_succ, succ_IZR. assert (Rabs (FR x) <= B)%R as Hx by (apply HB; constructor).
    assert (FR x * FR x <= B * B)%R. { apply Rabs_le_inv in Hx. nra. }
    assert (forall y, y ∈ l -> (Rabs (FR y) <= B)%R) as H2 by (intros; apply HB; by constructor). specialize (IH H2). lra.
Qed.

(** ** Rounding errors in the reals *)
Section real_bounds.
Context (e : R) (He : (0 < e <= / 1000000)%R).
(** The error bound, per square of the size of the samples. *)
Definition bnd (N : R) : R := (512 * (N * N * e) * (1 + N * N * e))%R.
Lemma bnd_pos N : (0 <= N)%R -> (0 <= bnd N)%R.
Proof. intros HN. unfold bnd. assert (0 <= N * N * e)%R by (apply Rmult_le_pos; nra). nra. Qed.
(** A rounding error of the sum that has been made so far. *)
Lemma bnd_round N : (1 <= N)%R -> (N * e <= / 8)%R -> (bnd N * e <= 64 * (N * e) + 64 * (N * (N * e) * (N * e)))%R.
Proof.
  intros HN Hc. set (u := (N * e)%R) in *. assert (0 < u)%R by (unfold u; nra).
  replace (bnd N * e)%R with (512 * (u * u) + 512 * (N * u * u) * u)%R by (unfold bnd, u; ring).
  assert (u * u <= u * / 8)%R by nra. assert (0 <= N * u * u)%R by (apply Rmult_le_pos; nra).
  assert (N * u * u * u <= N * u * u * / 8)%R by nra. lra.
Qed.
Lemma bnd_add N : (1 <= N)%R -> (N * e <= / 8)%R ->
  (bnd N + e * (56 * N + 42) + e * (N + bnd N + 27) <= bnd (N + 1))%R.
Proof.
  intros HN Hc. pose proof (bnd_round N HN Hc) as Hr.
  assert (bnd (N + 1) - bnd N = 512 * ((2 * N + 1) * e) + 512 * (((N + 1) * (N + 1) * (N + 1) * (N + 1) - N * N * N * N) * (e * e)))%R as E by (unfold bnd; ring).
  assert (0 < e * e)%R as He2 by nra.
  assert (N * N * N <= (N + 1) * (N + 1) * (N + 1) * (N + 1) - N * N * N * N)%R as H4 by (assert (0 <= N * N * N)%R by (apply Rmult_le_pos; nra); nra).
  assert (N * N * N * (e * e) <= ((N + 1) * (N + 1) * (N + 1) * (N + 1) - N * N * N * N) * (e * e))%R as H5 by (apply Rmult_le_compat_r; lra).
  assert (0 <= N * N * N * (e * e))%R by (apply Rmult_le_pos; [apply Rmult_le_pos; nra|lra]).
  replace (N * (N * e) * (N * e))%R with (N * N * N * (e * e))%R in Hr by ring.
  assert (e <= N * e)%R by nra. lra.
Qed.
Definition squares_error (N K : R) : R := (64 * (N * K) * e + 64 * (N * ((2 * N + K) * (2 * N + K))) * (e * e))%R.
Lemma bnd_merge N K : (1 <= N)%R -> (1 <= K)%R -> ((N + K) * e <= / 8)%R ->
  (bnd N + bnd K + (squares_error N K + squares_error K N + e * (39 * (N + K) + 2)) + 4 * e * (28 * (N + K) + bnd N + bnd K) <= bnd (N + K))%R.
Proof.
  intros HN HK Hc. pose proof (bnd_round N HN ltac:(nra)) as HrN. pose proof (bnd_round K HK ltac:(nra)) as HrK.
  assert (0 < e * e)%R as He2 by nra.
  replace (N * (N * e) * (N * e))%R with (N * N * N * (e * e))%R in HrN by ring.
  replace (K * (K * e) * (K * e))%R with (K * K * K * (e * e))%R in HrK by ring.
  set (P := (N * K)%R) in *. assert (1 <= P)%R as HP by (unfold P; nra). assert (N + K <= 2 * P)%R as HP2 by (unfold P; nra).
  assert (bnd (N + K) - bnd N - bnd K = 1024 * (P * e) + 512 * ((4 * (N * N * P) + 6 * (P * P) + 4 * (K * K * P)) * (e * e)))%R as E by (unfold bnd, P; ring).
  assert (squares_error N K + squares_error K N = 128 * (P * e) + 64 * ((4 * (N * N * N) + 5 * (N * P) + 5 * (K * P) + 4 * (K * K * K)) * (e * e)))%R as ES
    by (unfold squares_error, P; ring).
  assert (N * N * N <= N * N * P)%R as A1 by (unfold P; assert (0 <= N * N * N)%R by (apply Rmult_le_pos; nra); nra).
  assert (K * K * K <= K * K * P)%R as A2 by (unfold P; assert (0 <= K * K * K)%R by (apply Rmult_le_pos; nra); nra).
  assert (N * P <= P * P)%R as A3 by (apply Rmult_le_compat_r; unfold P; nra).
  assert (K * P <= P * P)%R as A4 by (apply Rmult_le_compat_r; unfold P; nra).
  assert (0 <= N * N * N)%R by (apply Rmult_le_pos; nra). assert (0 <= K * K * K)%R by (apply Rmult_le_pos; nra).
  assert (0 <= P * P)%R by nra.
  assert ((256 * (N * N * N + K * K * K) + 64 * (4 * (N * N * N) + 5 * (N * P) + 5 * (K * P) + 4 * (K * K * K))) * (e * e) <=
    512 * (4 * (N * N * P) + 6 * (P * P) + 4 * (K * K * P)) * (e * e))%R as A5 by (apply Rmult_le_compat_r; lra).
  assert ((N + K) * e <= 2 * P * e)%R as A6 by (apply Rmult_le_compat_r; lra).
  assert (e <= P * e)%R by nra. lra.
Qed.
Lemma times_e z : (0 <= z)%R -> (0 <= z * e <= z * / 1000000)%R.
Proof. intros. split; [apply Rmult_le_pos; lra|]. apply Rmult_le_compat_l; lra. Qed.
Lemma three_sums x y p r s1 s2 s3 : (0 <= x)%R -> (0 <= y)%R -> (0 <= p)%R -> (0 <= r)%R ->
  (Rabs (s1 - (x + y)) <= (x + y) * e)%R -> (Rabs (s2 - (s1 + p)) <= (s1 + p) * e)%R -> (Rabs (s3 - (s2 + r)) <= (s2 + r) * e)%R ->
  (Rabs (s3 - (x + y + p + r)) <= 4 * e * (x + y + p + r))%R.
Proof.
  intros Hx Hy Hp Hr Ea Eb Ec. set (a := (x + y)%R) in *. assert (0 <= a)%R as A0 by (unfold a; lra).
  clearbody a. clear x y Hx Hy.
  pose proof (times_e a A0) as Ta. pose proof (times_e p Hp) as Tp. pose proof (times_e r Hr) as Tr.
  assert (a * e * e <= a * e * / 1000000)%R as Tae by (apply times_e; lra).
  assert (p * e * e <= p * e * / 1000000)%R as Tpe by (apply times_e; lra).
  assert (0 <= a * e * e * e <= a * e * e * / 1000000)%R as Taee by (apply times_e; apply times_e; lra).
  assert (0 <= a * e * e)%R by (apply times_e; lra). assert (0 <= p * e * e)%R by (apply times_e; lra).
  apply Rabs_le_inv in Ea.
  assert ((s1 + p) * e <= (a + a * e + p) * e)%R as U1 by (apply Rmult_le_compat_r; lra).
  apply Rabs_le_inv in Eb.
  assert ((s2 + r) * e <= (a + a * e + p + (a + a * e + p) * e + r) * e)%R as U2 by (apply Rmult_le_compat_r; lra).
  apply Rabs_le_inv in Ec. apply Rabs_le. lra.
Qed.
End real_bounds.

(** ** Rounding errors of doubles *)
Section accuracy.
Context (B : R) (HB : (bpow radix2 (-500) <= B <= bpow radix2 400)%R).

Lemma close_prod x y a b p q hx hy : (Rabs (x - a) <= hx)%R -> (Rabs (y - b) <= hy)%R -> (Rabs y <= p)%R -> (Rabs a <= q)%R ->
  (Rabs (x * y - a * b) <= p * hx + q * hy)%R.
Proof.
  intros Hx Hy Py Qa. replace (x * y - a * b)%R with ((x - a) * y + a * (y - b))%R by ring.
  eapply Rle_trans; [apply Rabs_triang|]. rewrite !Rabs_mult.
  pose proof (Rabs_pos (x - a)). pose proof (Rabs_pos (y - b)). pose proof (Rabs_pos y). pose proof (Rabs_pos a).
  assert (Rabs (x - a) * Rabs y <= hx * p)%R by (apply Rmult_le_compat; lra).
  assert (Rabs a * Rabs (y - b) <= q * hy)%R by (apply Rmult_le_compat; lra). lra.
Qed.
Lemma close_diff x y M c h : valid x -> valid y -> FR (fsub x y) = rnd (FR x - FR y)%R ->
  (Rabs (FR x - FR y) <= c * B)%R -> (Rabs (FR x - FR y - M) <= h)%R -> (Rabs (FR (fsub x y) - M) <= h + c * B * eu)%R.
Proof.
  intros Vx Vy E Hc Hh. pose proof (rel_sub x y Vx Vy) as R. rewrite <- E in R.
  replace (FR (fsub x y) - M)%R with ((FR x - FR y - M) + (FR (fsub x y) - (FR x - FR y)))%R by ring.
  eapply Rle_trans; [apply Rabs_triang|]. assert (0 < eu)%R by apply bpow_gt_0.
  assert (Rabs (FR x - FR y) * eu <= c * B * eu)%R by (apply Rmult_le_compat_r; lra). lra.
Qed.
Lemma close_fmul x y : valid x -> valid y -> fin x = true -> fin y = true -> (Rabs (FR x) <= 5 * B)%R -> (Rabs (FR y) <= 5 * B)%R ->
  (Rabs (FR (fmul x y) - FR x * FR y) <= 26 * (B * B) * eu)%R.
Proof.
  intros Vx Vy Fx Fy Hx Hy. pose proof (Bp B HB) as HB0. pose proof (tiny_B2 B HB) as Ht.
  assert (Rabs (FR x * FR y) <= 25 * (B * B))%R as Hu.
  { rewrite Rabs_mult. apply Rle_trans with (5 * B * (5 * B))%R; [|lra]. apply Rmult_le_compat; try apply Rabs_pos; done. }
  destruct (fmul_small x y) as [F E]; [done..| |].
  { apply rnd_bounded. apply (square_fits B HB 25); [|done]. split; [lra|]. apply pow150. apply IZR_le. lia. }
  rewrite E. eapply Rle_trans; [apply rel_abs|]. assert (0 < eu)%R by apply bpow_gt_0.
  assert (Rabs (FR x * FR y) * eu <= 25 * (B * B) * eu)%R by (apply Rmult_le_compat_r; lra). lra.
Qed.
(** The product of the two deviations that AddSample adds. *)
Lemma close_deviations n v m q M M' : 1 <= n <= 2 ^ 50 -> valid v -> fin v = true -> (Rabs (FR v) <= B)%R ->
  near B n M m -> near B (n + 1) M' q -> n + 1 <= 2 ^ 50 ->
  (Rabs (FR (fmul (fsub v m) (fsub v q)) - (FR v - M) * (FR v - M')) <= eu * (56 * IZR n + 42) * (B * B))%R.
Proof.
  intros Hn Vv Fv Bv Nm Nq Hn2. pose proof (HB' B HB) as HB'. pose proof (Bp B HB) as HB0. pose proof eu_small as He.
  pose proof (near_bound B HB' n _ _ ltac:(lia) Nm) as Bm. pose proof (near_bound B HB' (n + 1) _ _ ltac:(lia) Nq) as Bq.
  destruct Nm as (Vm & Fm & BM & Em), Nq as (Vq & Fq & BM' & Eq).
  destruct (diff B HB v m) as (V1 & F1 & E1 & A1); [done..|lra|done|].
  destruct (diff B HB v q) as (V2 & F2 & E2 & A2); [done..|lra|done|].
  assert (forall x, (Rabs x <= 2 * B)%R -> (Rabs (FR v - x) <= 3 * B)%R) as H3.
  { intros x Hx. unfold Rminus. eapply Rle_trans; [apply Rabs_triang|]. rewrite Rabs_Ropp. lra. }
  assert (Rabs (FR v - M) <= 2 * B)%R as H2.
  { unfold Rminus. eapply Rle_trans; [apply Rabs_triang|]. rewrite Rabs_Ropp. lra. }
  assert (Rabs (FR (fsub v m) - (FR v - M)) <= IZR n * (8 * eu * B))%R as C1.
  { eapply Rle_trans; [apply (close_diff v m (FR v - M)%R 3 (IZR (n - 1) * (8 * eu * B)))|]; try done; [by apply H3| |].
    - replace (FR v - FR m - (FR v - M))%R with (- (FR m - M))%R by ring. by rewrite Rabs_Ropp.
    - rewrite minus_IZR. nra. }
  assert (Rabs (FR (fsub v q) - (FR v - M')) <= (IZR n + 1) * (8 * eu * B))%R as C2.
  { eapply Rle_trans; [apply (close_diff v q (FR v - M')%R 3 (IZR n * (8 * eu * B)))|]; try done; [by apply H3| |].
    - replace (FR v - FR q - (FR v - M'))%R with (- (FR q - M'))%R by ring. rewrite Rabs_Ropp. by replace (n + 1 - 1) with n in Eq by lia.
    - nra. }
  pose proof (close_prod _ _ _ _ _ _ _ _ C1 C2 A2 H2) as C3.
  pose proof (close_fmul _ _ V1 V2 F1 F2 A1 A2) as C4.
  set (p := fmul _ _) in *. replace (FR p - (FR v - M) * (FR v - M'))%R
    with ((FR p - FR (fsub v m) * FR (fsub v q)) + (FR (fsub v m) * FR (fsub v q) - (FR v - M) * (FR v - M')))%R by ring.
  eapply Rle_trans; [apply Rabs_triang|]. eapply Rle_trans; [apply Rplus_le_compat; [exact C4|exact C3]|]. right. ring.
Qed.
(** The weighted square that Merge adds. *)
Lemma close_weighted n k q m M' M : 1 <= n -> 1 <= k -> n + k <= 2 ^ 50 -> near B n M m -> near B (n + k) M' q ->
  (Rabs (M' - M) <= 2 * B * (IZR k / (IZR n + IZR k)))%R ->
  let d := fsub q m in
  (Rabs (FR (fmul (fmul (f_of_int n) d) d) - IZR n * ((M' - M) * (M' - M))) <=
    (squares_error eu (IZR n) (IZR k) + eu * (27 * IZR k + 12 * IZR n + 1)) * (B * B))%R.
Proof.
  intros Hn Hk Hnk Nm Nq HM d. pose proof (HB' B HB) as HB'. pose proof (Bp B HB) as HB0. pose proof eu_small as He.
  pose proof (tiny_B2 B HB) as Ht.
  pose proof (near_bound B HB' n _ _ ltac:(lia) Nm) as Bm. pose proof (near_bound B HB' (n + k) _ _ ltac:(lia) Nq) as Bq.
  destruct Nm as (Vm & Fm & BM & Em), Nq as (Vq & Fq & BM' & Eq).
  destruct (diff B HB q m) as (Vd & Fd & Ed & Ad); [done..|]. fold d in Vd, Fd, Ed, Ad.
  assert (1 <= IZR n)%R as HN by (apply IZR_le; lia). assert (1 <= IZR k)%R as HK by (apply IZR_le; lia).
  assert (IZR n <= IZR (2 ^ 50))%R as HN2 by (apply IZR_le; lia).
  pose proof (count_eu (n + k) ltac:(lia)) as Hc. rewrite plus_IZR in Hc.
  rewrite minus_IZR in Em. rewrite minus_IZR, plus_IZR in Eq.
  (* the rounding of the products *)
  destruct (f_of_int_spec n) as (Vn & Fn & Rn); [lia|].
  assert (Rabs (IZR n * FR d) <= 5 * IZR n * B)%R as A1.
  { rewrite Rabs_mult, (Rabs_pos_eq (IZR n)) by lra. nra. }
  destruct (fmul_small (f_of_int n) d) as [F1 E1]; [done..| |].
  { rewrite Rn. apply rnd_bounded. apply (linear_fits B HB (5 * IZR n)); [|done]. split; [lra|]. apply pow150.
    apply Rle_trans with (5 * IZR (2 ^ 50))%R; [lra|]. rewrite <- mult_IZR. apply IZR_le. lia. }
  set (w := fmul (f_of_int n) d) in *. assert (valid w) as Vw by (by apply fmul_valid). rewrite Rn in E1.
  pose proof (rel_mul n d Vd) as R1. rewrite <- E1 in R1.
  set (N := IZR n) in *. set (K := IZR k) in *. set (W := (N * (FR d * FR d))%R).
  assert (0 <= FR d * FR d)%R as Hdd by nra. assert (0 <= W)%R as HW by (unfold W; nra).
  assert (Rabs (FR w * FR d - W) <= W * eu)%R as C1.
  { replace (FR w * FR d - W)%R with ((FR w - N * FR d) * FR d)%R by (unfold W; ring). rewrite Rabs_mult.
    replace (W * eu)%R with (Rabs (N * FR d) * eu * Rabs (FR d))%R.
    - apply Rmult_le_compat_r; [apply Rabs_pos|]. exact R1.
    - rewrite Rabs_mult, (Rabs_pos_eq N) by lra. unfold W. rewrite <- (Rabs_pos_eq (FR d * FR d)), Rabs_mult by done. ring. }
  assert (0 < B * B)%R as HBB by nra. assert (0 < N * (B * B))%R as HnBB by nra.
  assert (W <= 25 * N * (B * B))%R as HWu.
  { unfold W. rewrite <- (Rabs_pos_eq (FR d * FR d)), Rabs_mult by done.
    assert (Rabs (FR d) * Rabs (FR d) <= 5 * B * (5 * B))%R by (apply Rmult_le_compat; try apply Rabs_pos; done). nra. }
  assert (Rabs (FR w * FR d) <= W * (1 + eu))%R as A2.
  { replace (FR w * FR d)%R with (W + (FR w * FR d - W))%R by ring. eapply Rle_trans; [apply Rabs_triang|].
    rewrite (Rabs_pos_eq W) by done. lra. }
  destruct (fmul_small w d) as [F2 E2]; [done..| |].
  { apply rnd_bounded. apply (square_fits B HB (26 * N)); [|].
    - split; [lra|]. apply pow150. apply Rle_trans with (26 * IZR (2 ^ 50))%R; [lra|]. rewrite <- mult_IZR. apply IZR_le. lia.
    - eapply Rle_trans; [exact A2|]. nra. }
  assert (Rabs (FR (fmul w d) - W) <= W * (3 * eu) + eu * (B * B))%R as C2.
  { pose proof (rel_abs (FR w * FR d)) as R. rewrite <- E2 in R.
    replace (FR (fmul w d) - W)%R with ((FR (fmul w d) - FR w * FR d) + (FR w * FR d - W))%R by ring.
    eapply Rle_trans; [apply Rabs_triang|].
    assert (Rabs (FR w * FR d) * eu <= W * (1 + eu) * eu)%R by (apply Rmult_le_compat_r; lra).
    assert (W * (1 + eu) * eu <= 2 * (W * eu))%R by (assert (0 <= W * eu)%R by nra; nra). lra. }
  (* the error of the difference *)
  set (D := (M' - M)%R) in *. set (h := (8 * (2 * N + K) * eu * B)%R).
  assert (Rabs (FR d - D) <= h)%R as C3.
  { eapply Rle_trans; [apply (close_diff q m D 4 ((N + K - 1) * (8 * eu * B) + (N - 1) * (8 * eu * B)))|]; try done.
    - unfold Rminus. eapply Rle_trans; [apply Rabs_triang|]. rewrite Rabs_Ropp. lra.
    - replace (FR q - FR m - D)%R with ((FR q - M') + - (FR m - M))%R by (unfold D; ring).
      eapply Rle_trans; [apply Rabs_triang|]. rewrite Rabs_Ropp. lra.
    - unfold h. assert (0 < eu * B)%R by nra. nra. }
  assert (0 <= h)%R as Hh by (eapply Rle_trans; [apply Rabs_pos|exact C3]).
  set (T := (2 * B * (K / (N + K)))%R) in *.
  assert (Rabs (FR d * FR d - D * D) <= 2 * (T * h) + h * h)%R as C4.
  { replace (FR d * FR d - D * D)%R with ((FR d - D) * (FR d - D) + 2 * (D * (FR d - D)))%R by ring.
    eapply Rle_trans; [apply Rabs_triang|]. rewrite !Rabs_mult, (Rabs_pos_eq 2) by lra.
    assert (Rabs (FR d - D) * Rabs (FR d - D) <= h * h)%R by (apply Rmult_le_compat; try apply Rabs_pos; done).
    assert (Rabs D * Rabs (FR d - D) <= T * h)%R by (apply Rmult_le_compat; try apply Rabs_pos; done). lra. }
  assert (N * (2 * (T * h) + h * h) <= squares_error eu N K * (B * B))%R as C5.
  { unfold squares_error, h, T. set (r := (K / (N + K))%R). assert (r * (2 * N + K) <= 2 * K)%R as Hr.
    { unfold r. apply Rmult_le_reg_r with (N + K)%R; [lra|]. replace (K / (N + K) * (2 * N + K) * (N + K))%R with (K * (2 * N + K))%R by (field; lra). nra. }
    replace (N * (2 * (2 * B * r * (8 * (2 * N + K) * eu * B)) + 8 * (2 * N + K) * eu * B * (8 * (2 * N + K) * eu * B)))%R
      with (32 * (r * (2 * N + K)) * (N * eu * (B * B)) + 64 * (N * ((2 * N + K) * (2 * N + K))) * (eu * eu) * (B * B))%R by ring.
    assert (0 < N * eu * (B * B))%R by (apply Rmult_lt_0_compat; nra).
    assert (r * (2 * N + K) * (N * eu * (B * B)) <= 2 * K * (N * eu * (B * B)))%R by (apply Rmult_le_compat_r; lra). lra. }
  assert (Rabs (W - N * (D * D)) <= squares_error eu N K * (B * B))%R as C6.
  { replace (W - N * (D * D))%R with (N * (FR d * FR d - D * D))%R by (unfold W; ring). rewrite Rabs_mult, (Rabs_pos_eq N) by lra. nra. }
  (* the size of the weighted square *)
  assert (W <= (9 * K + 4 * N) * (B * B))%R as HW2.
  { assert (N * (D * D) <= K * (B * B))%R as HD.
    { assert (D * D <= T * T)%R as H1.
      { rewrite <- (Rabs_pos_eq (D * D)), Rabs_mult by nra. apply Rmult_le_compat; try apply Rabs_pos; done. }
      apply Rle_trans with (N * (T * T))%R; [nra|]. unfold T.
      apply Rmult_le_reg_r with ((N + K) * (N + K))%R; [nra|].
      replace (N * (2 * B * (K / (N + K)) * (2 * B * (K / (N + K)))) * ((N + K) * (N + K)))%R with (4 * (N * K) * (K * (B * B)))%R by (field; lra).
      assert (0 < K * (B * B))%R by nra. assert (4 * (N * K) <= (N + K) * (N + K))%R by (pose proof (Rle_0_sqr (N - K)) as Hq; unfold Rsqr in Hq; lra).
      rewrite (Rmult_comm (K * (B * B))). apply Rmult_le_compat_r; lra. }
    apply Rabs_le_inv in C6. assert (squares_error eu N K <= 8 * K + 4 * N)%R as HS.
    { unfold squares_error. assert (N * eu <= / 8)%R by nra. assert (0 < (2 * N + K) * eu <= / 4)%R by nra.
      assert (64 * (N * ((2 * N + K) * (2 * N + K))) * (eu * eu) = 64 * N * ((2 * N + K) * eu * ((2 * N + K) * eu)))%R as -> by ring.
      assert ((2 * N + K) * eu * ((2 * N + K) * eu) <= / 4 * / 4)%R by (apply Rmult_le_compat; lra). nra. }
    assert (squares_error eu N K * (B * B) <= (8 * K + 4 * N) * (B * B))%R by (apply Rmult_le_compat_r; lra). lra. }
  replace (FR (fmul w d) - N * (D * D))%R with ((FR (fmul w d) - W) + (W - N * (D * D)))%R by ring.
  eapply Rle_trans; [apply Rabs_triang|].
  assert (W * (3 * eu) <= (9 * K + 4 * N) * (B * B) * (3 * eu))%R by (apply Rmult_le_compat_r; lra). lra.
Qed.

(** ** Histories *)
(** The sum of squared deviations after the samples [l]. *)
Definition spread_ok (l : list double) (x : double) : Prop :=
  (Rabs (FR x - exact_ssd l) <= bnd eu (IZR (Z.of_nat (length l))) * (B * B))%R.

(** The rounding of a sum of non-negative doubles. *)
Lemma sum_near x y a c : valid x -> valid y -> fin x = true -> fin y = true ->
  (0 <= FR x <= a)%R -> (0 <= FR y <= c)%R -> (a + c <= bpow radix2 1000)%R ->
  (Rabs (FR (fadd x y) - (FR x + FR y)) <= (FR x + FR y) * eu)%R.
Proof.
  intros Vx Vy Fx Fy Hx Hy Hac. destruct (fadd_small x y) as [F E]; [done..| |].
  { apply rnd_bounded. rewrite Rabs_pos_eq by lra. lra. }
  rewrite E. eapply Rle_trans; [by apply rel_add|]. rewrite Rabs_pos_eq by lra. lra.
Qed.
Lemma moderate_size l x : moderate B l -> x ∈ l -> (Rabs (FR x) <= B)%R.
Proof. intros [H _] Hx. destruct (H x Hx) as (_ & _ & H'). by rewrite real_FR in H'. Qed.
Lemma spread_size l x : moderate B l -> l <> [] -> spread_ok l x ->
  (FR x <= (IZR (Z.of_nat (length l)) + bnd eu (IZR (Z.of_nat (length l)))) * (B * B))%R.
Proof.
  intros Hm Hl Hs. destruct (exact_ssd_bound B l Hl (fun x => moderate_size l x Hm)) as [_ H].
  unfold spread_ok in Hs. apply Rabs_le_inv in Hs. lra.
Qed.

Lemma accurate_add d l v s : d_count d = Z.of_nat (length l) -> moderate B (l ++ [v]) -> (l <> [] -> mean_ok B l (d_mean d)) ->
  (l <> [] -> ssd_ok B (Z.of_nat (length l)) (d_ssd d)) -> (l <> [] -> spread_ok l (d_ssd d)) ->
  UpdateGeneralStatistics b64 v (d_stats d) = Ok s -> spread_ok (l ++ [v]) (s_ssd s).
Proof.
  intros Hc Hm HM HS IH Hs. pose proof (HB' B HB) as HB'. destruct (mean_add B d l v s HB' Hc Hm HM Hs) as [HM' _].
  pose proof (Bp B HB) as HB0. pose proof eu_small as He. pose proof (moderate_app _ _ _ Hm) as [Ml _].
  assert (0 < B * B)%R as HBB by nra.
  destruct (Z.eqb_spec (d_count d) 0) as [E|E].
  - unfold UpdateGeneralStatistics in Hs. cbn [d_stats s_count] in Hs. rewrite E, Z.eqb_refl in Hs.
    injection Hs as <-. destruct l; [|cbn [length] in Hc; lia]. cbn [app s_ssd]. unfold spread_ok. rewrite exact_ssd_one.
    change (FR (S754_zero false)) with 0%R. replace (0 - 0)%R with 0%R by ring. rewrite Rabs_R0. cbn [length]. apply Rmult_le_pos; [|nra].
    apply bnd_pos; [lra|]. change (Z.of_nat 1) with 1. lra.
  - assert (l <> []) as Hl by (intros ->; cbn in Hc; lia). specialize (IH Hl). specialize (HM Hl). specialize (HS Hl).
    pose proof (spread_size l _ Ml Hl IH) as Hz.
    destruct (sample_product B HB d l v s Hc Hm Hl HM Hs) as (-> & Vp & Fp & Hp).
    destruct HM as [HM _], HM' as [HM' _]. unfold spread_ok in *. rewrite exact_ssd_snoc by done.
    destruct Hm as [Hm1 Hm2]. destruct (Hm1 v) as (Vv & Fv & Bv); [set_solver|]. apply fin_finite in Fv. rewrite real_FR in Bv.
    rewrite app_length, Nat2Z.inj_add in *. change (Z.of_nat (length [v])) with 1 in *. rewrite plus_IZR.
    set (n := Z.of_nat (length l)) in *. assert (1 <= n) by (unfold n; destruct l; [done|cbn [length]; lia]).
    pose proof (close_deviations n v (d_mean d) (s_mean s) _ _ ltac:(lia) Vv Fv Bv HM HM' ltac:(lia)) as Hd.
    set (p := fmul _ _) in *. destruct HS as (Vx & Fx & Hx).
    assert (1 <= IZR n)%R as HN by (apply IZR_le; lia). pose proof (count_eu n ltac:(lia)) as Hce.
    assert (Rabs (FR (fadd (d_ssd d) p) - (FR (d_ssd d) + FR p)) <= (FR (d_ssd d) + FR p) * eu)%R as Ha.
    { apply (sum_near _ _ _ _ Vx Vp Fx Fp Hx Hp). apply (quad_fits B HB n (100 * (IZR n * IZR n) + 27)); [lia| |lra]. split; [nra|]. nra. }
    pose proof (bnd_add eu He (IZR n) HN ltac:(lra)) as Hb.
    assert ((FR (d_ssd d) + FR p) * eu <= (IZR n + bnd eu (IZR n) + 27) * (B * B) * eu)%R by (apply Rmult_le_compat_r; lra).
    apply (Rmult_le_compat_r (B * B)) in Hb; [|lra].
    set (E1 := exact_ssd l) in *. set (dev := ((FR v - exact_mean l) * (FR v - exact_mean (l ++ [v])))%R) in *.
    replace (FR (fadd (d_ssd d) p) - (E1 + dev))%R
      with ((FR (fadd (d_ssd d) p) - (FR (d_ssd d) + FR p)) + ((FR (d_ssd d) - E1) + (FR p - dev)))%R by ring.
    eapply Rle_trans; [apply Rabs_triang|].
    pose proof (Rabs_triang (FR (d_ssd d) - E1) (FR p - dev)). lra.
Qed.

(** How far the mean of the whole is from the mean of a part. *)
Lemma mean_shift l l' : l <> [] -> l' <> [] -> (Rabs (exact_mean l) <= B)%R -> (Rabs (exact_mean l') <= B)%R ->
  (Rabs (exact_mean (l ++ l') - exact_mean l) <=
    2 * B * (IZR (Z.of_nat (length l')) / (IZR (Z.of_nat (length l)) + IZR (Z.of_nat (length l')))))%R /\
  (Rabs (exact_mean (l ++ l') - exact_mean l') <=
    2 * B * (IZR (Z.of_nat (length l)) / (IZR (Z.of_nat (length l')) + IZR (Z.of_nat (length l)))))%R.
Proof.
  intros Hl Hl' H H'. rewrite exact_mean_app, plus_IZR by done. pose proof (count_pos l Hl). pose proof (count_pos l' Hl').
  set (N := IZR (Z.of_nat (length l))) in *. set (K := IZR (Z.of_nat (length l'))) in *.
  set (a := exact_mean l) in *. set (b := exact_mean l') in *.
  assert (Rabs (b - a) <= 2 * B)%R as Hab.
  { unfold Rminus. eapply Rle_trans; [apply Rabs_triang|]. rewrite Rabs_Ropp. lra. }
  assert (0 <= K / (N + K))%R by (apply Rmult_le_pos; [lra|]; apply Rlt_le, Rinv_0_lt_compat; lra).
  assert (0 <= N / (K + N))%R by (apply Rmult_le_pos; [lra|]; apply Rlt_le, Rinv_0_lt_compat; lra).
  split.
  - replace ((N * a + K * b) / (N + K) - a)%R with ((b - a) * (K / (N + K)))%R by (field; lra).
    rewrite Rabs_mult, (Rabs_pos_eq (K / (N + K))) by done. by apply Rmult_le_compat_r.
  - replace ((N * a + K * b) / (N + K) - b)%R with (- (b - a) * (N / (K + N)))%R by (field; lra).
    rewrite Rabs_mult, (Rabs_pos_eq (N / (K + N))), Rabs_Ropp by done. by apply Rmult_le_compat_r.
Qed.

Lemma accurate_merge f lf d l s : d_count d = Z.of_nat (length l) -> d_count f = Z.of_nat (length lf) -> 0 < d_count d -> 0 < d_count f ->
  moderate B (l ++ lf) -> mean_ok B l (d_mean d) -> mean_ok B lf (d_mean f) ->
  ssd_ok B (Z.of_nat (length l)) (d_ssd d) -> ssd_ok B (Z.of_nat (length lf)) (d_ssd f) ->
  spread_ok l (d_ssd d) -> spread_ok lf (d_ssd f) ->
  MergeStatistics b64 (d_stats f) (d_stats d) = Ok s -> spread_ok (l ++ lf) (s_ssd s).
Proof.
  intros Hc Hcf Hd Hf Hmod Md Mf Sd Sf Ad Af Hs. pose proof (HB' B HB) as HB'.
  pose proof (moderate_app _ _ _ Hmod) as [Ml Mlf].
  assert (l <> []) as Hl by (intros ->; cbn in Hc; lia). assert (lf <> []) as Hlf by (intros ->; cbn in Hcf; lia).
  pose proof (spread_size l _ Ml Hl Ad) as Zd. pose proof (spread_size lf _ Mlf Hlf Af) as Zf.
  pose proof (mean_merge B f lf d l s HB' Hc Hcf Hd Hf Hmod Md Mf Hs) as Mq.
  destruct Hmod as [_ Hm]. rewrite app_length, Nat2Z.inj_add in Hm.
  unfold MergeStatistics in Hs. destruct (add64 _ _ _) as [c1| | |] eqn:Ea; cbn [obind] in Hs; try discriminate.
  apply add64_strict in Ea as [-> _]. injection Hs as <-. cbn [s_mean s_ssd s_count d_stats nint nadd nsub nmul ndiv b64] in *.
  rewrite Hc, Hcf in *. unfold spread_ok in *. rewrite exact_ssd_app, app_length, Nat2Z.inj_add, plus_IZR by done.
  destruct Md as [Md _], Mf as [Mf _], Mq as [Mq _].
  destruct (mean_shift l lf Hl Hlf) as [D1 D2]; [apply Md|apply Mf|].
  set (n := Z.of_nat (length l)) in *. set (k := Z.of_nat (length lf)) in *. set (q := fdiv _ _) in *.
  rewrite app_length, Nat2Z.inj_add in Mq. fold n k in Mq.
  pose proof (close_weighted n k q (d_mean d) _ _ ltac:(lia) ltac:(lia) Hm Md Mq D1) as W1.
  assert (near B (k + n) (exact_mean (l ++ lf)) q) as Mq' by (by rewrite Z.add_comm).
  pose proof (close_weighted k n q (d_mean f) _ _ ltac:(lia) ltac:(lia) ltac:(lia) Mf Mq' D2) as W2. cbv zeta in W1, W2.
  pose proof (near_bound B HB' n _ _ ltac:(lia) Md) as Bd. pose proof (near_bound B HB' k _ _ ltac:(lia) Mf) as Bf.
  pose proof (near_bound B HB' (n + k) _ _ ltac:(lia) Mq) as Bq.
  destruct Md as (Vd & Fd & _), Mf as (Vf & Ff & _), Mq as (Vq & Fq & _).
  destruct (diff B HB q (d_mean d)) as (V1 & F1 & _ & A1); [done..|].
  destruct (diff B HB q (d_mean f)) as (V2 & F2 & _ & A2); [done..|].
  destruct (weighted_square B HB n (fsub q (d_mean d))) as (V3 & F3 & H3); [lia|done..|].
  destruct (weighted_square B HB k (fsub q (d_mean f))) as (V4 & F4 & H4); [lia|done..|].
  set (p := fmul (fmul (f_of_int n) _) _) in *. set (r := fmul (fmul (f_of_int k) _) _) in *.
  destruct Sd as (Vx & Fx & Hx), Sf as (Vy & Fy & Hy). set (x := d_ssd d) in *. set (y := d_ssd f) in *.
  pose proof (Bp B HB) as HB0. pose proof eu_small as He. assert (0 < B * B)%R as HBB by nra.
  assert (1 <= IZR n)%R as HN by (apply IZR_le; lia). assert (1 <= IZR k)%R as HK by (apply IZR_le; lia).
  pose proof (count_eu (n + k) ltac:(lia)) as Hce. rewrite plus_IZR in Hce.
  pose proof (bnd_merge eu He (IZR n) (IZR k) HN HK ltac:(lra)) as Hb.
  assert (forall T z, (0 <= T <= 200 * ((IZR n + IZR k) * (IZR n + IZR k)))%R -> (z <= T * (B * B))%R -> (z <= bpow radix2 1000)%R) as Hfit.
  { intros T z. rewrite <- plus_IZR. apply (quad_fits B HB). lia. }
  set (N := IZR n) in *. set (K := IZR k) in *. set (Q := ((N + K) * (N + K))%R) in *.
  assert (100 * (N * N) + 100 * (K * K) + 200 <= 100 * Q)%R as HQ by (unfold Q; nra).
  assert (2 * (N + K) <= Q)%R as HQ2 by (unfold Q; nra).
  (* the sums in turn *)
  assert (forall a c u v b b', valid u -> valid v -> fin u = true -> fin v = true -> (0 <= FR u <= a)%R -> (0 <= FR v <= c)%R ->
    (a + c <= b * (B * B))%R -> (0 <= b <= 150 * Q)%R -> (b * (1 + eu) <= b')%R ->
    valid (fadd u v) /\ fin (fadd u v) = true /\ (0 <= FR (fadd u v) <= b' * (B * B))%R /\
    (Rabs (FR (fadd u v) - (FR u + FR v)) <= (FR u + FR v) * eu)%R) as Hsum.
  { intros a c u v b b' Vu Vv Fu Fv Hu Hv Hac Hbb Hb'. assert (a + c <= bpow radix2 1000)%R as Hle by (apply (Hfit b); [lra|done]).
    destruct (add_nonneg u v a c Vu Vv Fu Fv Hu Hv Hle) as (V & F & L1 & L2 & U). split; [done|]. split; [done|].
    split; [|by apply (sum_near u v a c)]. split; [lra|]. eapply Rle_trans; [exact U|].
    apply Rle_trans with (b * (B * B) * (1 + eu))%R; [apply Rmult_le_compat_r; lra|].
    replace (b * (B * B) * (1 + eu))%R with (b * (1 + eu) * (B * B))%R by ring. apply Rmult_le_compat_r; lra. }
  pose proof (times_e eu He Q ltac:(lra)) as TQ. pose proof (times_e eu He N ltac:(lra)) as TN. pose proof (times_e eu He K ltac:(lra)) as TK.
  assert (100 * Q * (1 + eu) <= 101 * Q)%R as G1 by lra.
  assert ((101 * Q + 27 * N) * (1 + eu) <= 102 * Q + 28 * N)%R as G2 by lra.
  assert ((102 * Q + 28 * N + 27 * K) * (1 + eu) <= 104 * Q + 56 * (N + K))%R as G3 by lra.
  assert ((100 * (N * N) * (B * B) + 100 * (K * K) * (B * B)) <= 100 * Q * (B * B))%R as G4.
  { replace (100 * (N * N) * (B * B) + 100 * (K * K) * (B * B))%R with ((100 * (N * N) + 100 * (K * K)) * (B * B))%R by ring.
    apply Rmult_le_compat_r; lra. }
  destruct (Hsum _ _ x y (100 * Q)%R _ Vx Vy Fx Fy Hx Hy G4 ltac:(lra) G1) as (Va & Fa & Ha & Ea). set (s1 := fadd x y) in *.
  destruct (Hsum _ _ s1 p (101 * Q + 27 * N)%R _ Va V3 Fa F3 Ha H3 ltac:(lra) ltac:(lra) G2) as (Vb & Fb & Hb2 & Eb). set (s2 := fadd s1 p) in *.
  destruct (Hsum _ _ s2 r (102 * Q + 28 * N + 27 * K)%R _ Vb V4 Fb F4 Hb2 H4 ltac:(lra) ltac:(lra) G3) as (Vc & Fc & _ & Ec). set (s3 := fadd s2 r) in *.
  assert (0 <= FR x + FR y)%R as P0 by lra.
  assert (Rabs (FR s3 - (FR x + FR y + FR p + FR r)) <= 4 * eu * (FR x + FR y + FR p + FR r))%R as Es.
  { apply (three_sums eu He) with (FR s1) (FR s2); done || lra. }
  assert (4 * eu * (FR x + FR y + FR p + FR r) <= 4 * eu * ((28 * (N + K) + bnd eu N + bnd eu K) * (B * B)))%R as Et
    by (apply Rmult_le_compat_l; lra).
  apply (Rmult_le_compat_r (B * B)) in Hb; [|lra].
  set (X := exact_ssd l) in *. set (Y := exact_ssd lf) in *.
  set (P1 := (N * ((exact_mean (l ++ lf) - exact_mean l) * (exact_mean (l ++ lf) - exact_mean l)))%R) in *.
  set (P2 := (K * ((exact_mean (l ++ lf) - exact_mean lf) * (exact_mean (l ++ lf) - exact_mean lf)))%R) in *.
  replace (FR s3 - (X + Y + P1 + P2))%R
    with ((FR s3 - (FR x + FR y + FR p + FR r)) + ((FR x - X) + ((FR y - Y) + ((FR p - P1) + (FR r - P2)))))%R by ring.
  eapply Rle_trans; [apply Rabs_triang|]. pose proof (Rabs_triang (FR x - X) ((FR y - Y) + ((FR p - P1) + (FR r - P2)))).
  pose proof (Rabs_triang (FR y - Y) ((FR p - P1) + (FR r - P2))). pose proof (Rabs_triang (FR p - P1) (FR r - P2)). lra.
Qed.

Lemma built_accurate log2 d l : built log2 d l -> moderate B l -> l <> [] -> spread_ok l (d_ssd d).
Proof.
  pose proof (HB' B HB) as HB'.
  induction 1 as [n g s d H|n w o d H|b d H|d l v d' Hb IH H|d l f lf d' Hd IHd Hf IHf H]; try done.
  - intros Hm _. apply AddSample_inv in H as [(_ & ? & _)|(_ & _ & s & i & b & Hs & Hb' & -> & _)]; [done|].
    cbn [set_buckets set_stats d_ssd]. pose proof (moderate_app _ _ _ Hm) as [Ml _].
    destruct (built_inv _ _ _ Hb) as (_ & _ & Hc & _).
    by apply (accurate_add d l v s Hc Hm (built_mean B log2 d l HB' Hb Ml) (built_spread B HB log2 d l Hb Ml) (IH Ml) Hs).
  - intros Hm Hne. pose proof (moderate_app _ _ _ Hm) as [Ml Mf].
    destruct (built_inv _ _ _ Hd) as (_ & _ & Hc & _), (built_inv _ _ _ Hf) as (_ & _ & Hcf & _).
    apply Merge_inv in H as [(? & _)|(_ & _ & Hl & [(Hf0 & ->)|[(Hf0 & Ht0 & ->)|(Hf0 & Ht0 & s & Hs & ->)]])]; [done|..].
    + destruct lf; [|cbn [length] in Hcf; lia]. rewrite app_nil_r in *. auto.
    + destruct l; [|cbn [length] in Hc; lia]. cbn [app] in *. auto.
    + cbn [set_buckets set_stats d_ssd].
      assert (l <> []) by (intros ->; cbn in Hc; lia). assert (lf <> []) by (intros ->; cbn in Hcf; lia).
      apply (accurate_merge f lf d l s); auto; try (by eapply built_mean); by eapply built_spread.
Qed.
End accuracy.

Lemma spread_near B log2 d l : (powerRZ 2 (-500) <= B <= powerRZ 2 400)%R -> built log2 d l -> moderate B l ->
  is_double (d_ssd d) /\ finite (d_ssd d) /\ (Rabs (real (d_ssd d) - exact_ssd l) <= spread_error (length l) B)%R.
Proof.
  intros HB Hb Hm. destruct (spread_nonneg B log2 d l HB Hb Hm) as (V & F & _). split; [done|]. split; [done|].
  apply powerRZ_range in HB. destruct l as [|v l'] eqn:El.
  - rewrite (built_nil log2 d [] Hb) by done. rewrite real_FR. change (FR f_zero) with 0%R. unfold exact_ssd, spread_error. cbn [foldr length INR].
    replace (0 - 0)%R with 0%R by ring. rewrite Rabs_R0. right. field.
  - rewrite real_FR. eapply Rle_trans; [by apply (built_accurate B HB log2 d _ Hb)|]. unfold bnd, spread_error. rewrite INR_IZR_INZ.
    unfold Rdiv. rewrite (pow_bpow 53). change (- Z.of_nat 53) with (-53). right. reflexivity.
Qed.

(** ** The order of the samples does not matter *)
Lemma exact_sum_perm l l' : l ≡ₚ l' -> exact_sum l = exact_sum l'.
Proof. unfold exact_sum. induction 1; cbn [foldr]; [done|by f_equal|ring|by etrans]. Qed.
Lemma exact_mean_perm l l' : l ≡ₚ l' -> exact_mean l = exact_mean l'.
Proof. intros H. unfold exact_mean. by rewrite (exact_sum_perm _ _ H), (Permutation_length H). Qed.
Lemma exact_ssd_perm l l' : l ≡ₚ l' -> exact_ssd l = exact_ssd l'.
Proof.
  intros H. unfold exact_ssd. rewrite (exact_mean_perm _ _ H). generalize (exact_mean l'). intros m.
  induction H; cbn [foldr]; [done|by rewrite IHPermutation|ring|by rewrite IHPermutation1].
Qed.
Lemma two_near x y m h : (Rabs (x - m) <= h)%R -> (Rabs (y - m) <= h)%R -> (Rabs (x - y) <= 2 * h)%R.
Proof. intros Hx%Rabs_le_inv Hy%Rabs_le_inv. apply Rabs_le. lra. Qed.
Lemma any_order B log2 log2' d l d' l' : (powerRZ 2 (-500) <= B <= powerRZ 2 400)%R -> built log2 d l -> built log2' d' l' ->
  moderate B l -> l ≡ₚ l' ->
  (l <> [] -> Rabs (real (d_mean d) - real (d_mean d')) <= 2 * (IZR (Z.of_nat (length l) - 1) * B / 2 ^ 50))%R /\
  (Rabs (real (d_ssd d) - real (d_ssd d')) <= 2 * spread_error (length l) B)%R.
Proof.
  intros HB Hb Hb' Hm Hp. assert (moderate B l') as Hm'.
  { destruct Hm as [H1 H2]. split; [|by rewrite <- (Permutation_length Hp)]. intros x Hx. apply H1. by rewrite Hp. }
  assert (powerRZ 2 (-1000) <= B <= powerRZ 2 900)%R as HBm.
  { rewrite <- !(bpow_powerRZ radix2). apply powerRZ_range in HB. by apply (HB' B). }
  split.
  - intros Hl. apply (two_near _ _ (exact_mean l)).
    + by eapply mean_near.
    + rewrite (exact_mean_perm _ _ Hp), (Permutation_length Hp). apply (mean_near B log2'); try done.
      intros ->. by apply Permutation_nil_r in Hp.
  - apply (two_near _ _ (exact_ssd l)).
    + by apply (spread_near B log2 d l).
    + rewrite (exact_ssd_perm _ _ Hp), (Permutation_length Hp). by apply (spread_near B log2').
Qed.

(** ** Witnesses *)
Lemma tenths_one_built log2 : built log2 (after f_one (after f_tenth (after f_tenth one_bound))) [f_tenth; f_tenth; f_one].
Proof.
  apply (built_sample _ (after f_tenth (after f_tenth one_bound)) [f_tenth; f_tenth]); [|vm_compute; reflexivity].
  apply (built_sample _ (after f_tenth one_bound) [f_tenth]); [|vm_compute; reflexivity].
  apply (built_sample _ one_bound []); [apply one_bound_built|vm_compute; reflexivity].
Qed.
Lemma tenth_one_tenth_built log2 : built log2 (after f_tenth (after f_one (after f_tenth one_bound))) [f_tenth; f_one; f_tenth].
Proof.
  apply (built_sample _ (after f_one (after f_tenth one_bound)) [f_tenth; f_one]); [|vm_compute; reflexivity].
  apply (built_sample _ (after f_tenth one_bound) [f_tenth]); [|vm_compute; reflexivity].
  apply (built_sample _ one_bound []); [apply one_bound_built|vm_compute; reflexivity].
Qed.
Lemma tenths_one_perm : [f_tenth; f_tenth; f_one] ≡ₚ [f_tenth; f_one; f_tenth].
Proof. apply perm_skip, perm_swap. Qed.
Lemma tenths_one_finite x : x ∈ [f_tenth; f_tenth; f_one] -> is_double x /\ finite x.
Proof. intros Hx. assert (x = f_tenth \/ x = f_one) as [-> | ->] by set_solver; done. Qed.
Lemma one_size : (Rabs (real f_one) <= 1)%R.
Proof.
  replace (real f_one) with 1%R; [rewrite Rabs_R1; lra|]. rewrite real_FR. symmetry.
  apply (f_of_int_spec 1). lia.
Qed.
Lemma tenths_one_moderate : moderate 1 [f_tenth; f_tenth; f_one] /\ (spread_error 1000 1 <= / 2 ^ 23)%R.
Proof.
  split.
  - split; [|cbn [length]; lia]. intros x Hx. pose proof (tenths_one_finite x Hx) as [H1 H2]. split; [done|]. split; [done|].
    assert (x = f_tenth \/ x = f_one) as [-> | ->] by set_solver; [|exact one_size].
    apply (proj1 tenths_moderate). set_solver.
  - unfold spread_error. rewrite INR_IZR_INZ. change (IZR (Z.of_nat 1000)) with 1000%R.
    change (2 ^ 53)%R with (IZR 2 ^ 53)%R. change (2 ^ 23)%R with (IZR 2 ^ 23)%R. rewrite !pow_IZR.
    change (2 ^ Z.of_nat 53) with 9007199254740992. change (2 ^ Z.of_nat 23) with 8388608. lra.
Qed.
