(** Adding a sample moves the computed mean toward the sample and never beyond it. *)
From Coq Require Import Reals Lra.
From Flocq Require Import Core.Core IEEE754.BinarySingleNaN.
From Verif Require Import Proto Distribution DistributionSpec DistributionRSpec DistributionProofs Float64Proofs DistributionLinear.
Open Scope Z_scope.

#[local] Existing Instance Float64Proofs.Hprec.
#[local] Existing Instance Float64Proofs.Hmax.
#[local] Instance fx_valid : Valid_exp fx.
Proof. apply (fexp_correct 53 1024). done. Qed.
#[local] Instance fx_mono : Monotone_exp fx.
Proof. apply (fexp_monotone 53 1024). Qed.
#[local] Instance rnd_valid : Valid_rnd (round_mode mode_NE).
Proof. apply valid_rnd_round_mode. Qed.

Notation fmt := (generic_format radix2 fx).
Notation fulp := (ulp radix2 fx).
Notation fpred := (Ulp.pred radix2 fx).
Notation fsucc := (Ulp.succ radix2 fx).

Lemma rnd_fmt x : fmt (rnd x).
Proof. apply generic_format_round; typeclasses eauto. Qed.
Lemma rnd_opp x : rnd (- x) = (- rnd x)%R.
Proof. exact (round_NE_opp radix2 fx x). Qed.
Lemma rnd_below u x : fmt u -> (u < rnd x)%R -> ((u + fsucc u) / 2 <= x)%R.
Proof.
  intros Hu H. destruct (Rlt_or_le x ((u + fsucc u) / 2)) as [C|C]; [|done].
  assert (rnd x <= u)%R by exact (round_N_le_midp radix2 fx (fun x => negb (Z.even x)) u x Hu C). lra.
Qed.
Lemma rnd_above u x : fmt u -> (rnd x < u)%R -> (x <= (u + fpred u) / 2)%R.
Proof.
  intros Hu H. destruct (Rlt_or_le ((u + fpred u) / 2) x) as [C|C]; [|done].
  assert (u <= rnd x)%R by exact (round_N_ge_midp radix2 fx (fun x => negb (Z.even x)) u x Hu C). lra.
Qed.
Lemma rnd_nearest x y : fmt y -> (Rabs (rnd x - x) <= Rabs (y - x))%R.
Proof. intros Hy. destruct (round_N_pt radix2 fx (fun x => negb (Z.even x)) x) as [_ Q]. by apply Q. Qed.

(** Shape of a double: an integer below 2^53 in units of its last place. *)
Lemma fmt_shape v : fmt v -> (0 < v)%R -> exists V e, v = (IZR V * bpow radix2 e)%R /\ fulp v = bpow radix2 e /\
  -1074 <= e /\ 1 <= V < 2 ^ 53.
Proof.
  intros Fv Hv. set (e := cexp radix2 fx v).
  assert (v = (IZR (Ztrunc (scaled_mantissa radix2 fx v)) * bpow radix2 e)%R) as Ev by exact Fv.
  exists (Ztrunc (scaled_mantissa radix2 fx v)), e. set (V := Ztrunc _) in *.
  assert (-1074 <= e /\ mag radix2 v <= e + 53)%Z as [He1 He2].
  { unfold e, cexp, SpecFloat.fexp, SpecFloat.emin. lia. }
  split; [done|]. split; [unfold e; apply ulp_neq_0; lra|]. split; [done|].
  assert (0 < bpow radix2 e)%R by apply bpow_gt_0. split.
  - assert (0 < V); [|lia]. apply lt_IZR. nra.
  - apply lt_IZR. rewrite (IZR_Zpower radix2) by lia.
    apply Rmult_lt_reg_r with (bpow radix2 e); [done|]. rewrite <- Ev, <- bpow_plus.
    apply Rlt_le_trans with (bpow radix2 (mag radix2 v)).
    + rewrite <- (Rabs_pos_eq v) at 1 by lra. apply bpow_mag_gt.
    + apply bpow_le. lia.
Qed.

(** The distance to the next lower double is the unit in the last place, unless the number is a power of two; it is at
    least half that unit. *)
Lemma pred_gap v : fmt v -> (0 < v)%R ->
  exists V e, v = (IZR V * bpow radix2 e)%R /\ fulp v = bpow radix2 e /\ -1074 <= e /\ 1 <= V < 2 ^ 53 /\
  (v - fpred v <= bpow radix2 e)%R /\ (bpow radix2 e / 2 <= v - fpred v)%R /\
  (2 ^ 52 < V -> fpred v = (v - bpow radix2 e)%R).
Proof.
  intros Fv Hv. destruct (fmt_shape v Fv Hv) as (V & e & Ev & Hu & He & HV). exists V, e.
  do 4 (split; [done|]). rewrite pred_eq_pos by lra. unfold pred_pos. rewrite Hu.
  pose proof (bpow_gt_0 radix2 e) as Hpos.
  destruct (Req_bool_spec v (bpow radix2 (mag radix2 v - 1))) as [E|N].
  - set (k := (mag radix2 v - 1)%Z) in *.
    assert (e = fx (k + 1)) as Ek.
    { rewrite E in Hu at 1. rewrite ulp_bpow in Hu. apply (bpow_inj radix2). congruence. }
    assert (e - 1 <= fx k <= e) as Hk.
    { rewrite Ek. unfold SpecFloat.fexp, SpecFloat.emin. lia. }
    assert (bpow radix2 (fx k) <= bpow radix2 e)%R by (apply bpow_le; lia).
    assert (bpow radix2 e / 2 <= bpow radix2 (fx k))%R.
    { apply Rle_trans with (bpow radix2 (e - 1)); [|apply bpow_le; lia].
      replace (e - 1) with (e + -1) by lia. rewrite bpow_plus. change (bpow radix2 (-1)) with (/ 2)%R. lra. }
    split; [lra|]. split; [lra|]. intros HV2. exfalso.
    assert (k < e + 53).
    { apply (lt_bpow radix2). rewrite <- E, Ev. rewrite Z.add_comm, bpow_plus.
      apply Rmult_lt_compat_r; [done|]. rewrite <- (IZR_Zpower radix2) by lia. apply IZR_lt. cbn [radix2 radix_val]. lia. }
    assert (e + 52 < k).
    { apply (lt_bpow radix2). rewrite <- E, Ev. rewrite Z.add_comm, bpow_plus.
      apply Rmult_lt_compat_r; [done|]. rewrite <- (IZR_Zpower radix2) by lia. apply IZR_lt. cbn [radix2 radix_val]. lia. }
    lia.
  - split; [lra|]. split; [lra|]. intros _. lra.
Qed.

(** The unit in the last place of a number from a wider range is a multiple of a given one, and not larger than the
    number allows. *)
Lemma gap_power p e c : (0 <= p)%R -> -1074 <= e -> (p < c * bpow radix2 (e + 52))%R -> (bpow radix2 e < fulp p)%R ->
  exists j : nat, fulp p = (IZR (2 ^ Z.of_nat j) * bpow radix2 e)%R /\ (0 < j)%nat /\ (IZR (2 ^ Z.of_nat j) < c)%R.
Proof.
  intros Hp He Hc Hg.
  destruct (Rle_or_lt (bpow radix2 (-1022)) (Rabs p)) as [Hb|Hs].
  - assert (p <> 0)%R as Np. { intros ->. rewrite Rabs_R0 in Hb. pose proof (bpow_gt_0 radix2 (-1022)). lra. }
    pose proof (ulp_big p Hb) as Hu. rewrite Rabs_pos_eq in Hu by done.
    rewrite ulp_neq_0 in * by done. set (g := cexp radix2 fx p) in *.
    assert (e < g) by (by apply (lt_bpow radix2)).
    assert (IZR (2 ^ (g - e)) * bpow radix2 e = bpow radix2 g)%R as E.
    { rewrite (IZR_Zpower radix2) by lia. rewrite <- bpow_plus. f_equal. lia. }
    exists (Z.to_nat (g - e)). rewrite Z2Nat.id by lia. split; [done|]. split; [lia|].
    apply Rmult_lt_reg_r with (bpow radix2 e); [apply bpow_gt_0|]. rewrite E.
    eapply Rle_lt_trans; [exact Hu|].
    apply Rmult_lt_reg_r with (bpow radix2 52); [apply bpow_gt_0|].
    rewrite Rmult_assoc, <- bpow_plus. change (bpow radix2 (-52 + 52)) with 1%R.
    rewrite bpow_plus in Hc. lra.
  - exfalso. assert (Rabs p < bpow radix2 (-1074 + 53))%R as Hs2 by (eapply Rlt_trans; [exact Hs|apply bpow_lt; lia]).
    pose proof (ulp_FLT_small radix2 (-1074) 53 p Hs2) as Hu.
    change (ulp radix2 (FLT_exp (-1074) 53) p) with (fulp p) in Hu. rewrite Hu in Hg. apply (lt_bpow radix2) in Hg. lia.
Qed.

(** A power of two of exponent at least one is not an odd number. *)
Lemma no_power n j : (0 < j)%nat -> 2 * n + 1 <= 2 ^ Z.of_nat j -> ~ 2 ^ Z.of_nat j < 2 * n + 2.
Proof.
  intros Hj H1 H2. replace (Z.of_nat j) with (Z.of_nat (j - 1) + 1) in * by lia.
  rewrite Z.pow_add_r in * by lia. lia.
Qed.

Section toward.
Context (n : Z) (Hn : 1 <= n < 2 ^ 53).
Notation N := (IZR n).
Lemma HN : (1 <= N)%R.
Proof. apply IZR_le. lia. Qed.

(** The product of count and mean is not above half way to the sample. *)
Lemma product_half m v b : fmt b -> m = rnd (b / N) -> fmt v -> (m < v)%R -> (rnd (N * m) <= N * (m + v) / 2)%R.
Proof.
  intros Fb Hm Fv Hlt. pose proof HN as HN. assert (fmt m) as Fm by (subst; apply rnd_fmt).
  assert ((m + fulp m <= v)%R \/ fmt (N * m)%R) as [Hu|Hex].
  { destruct (Rle_or_lt 0 m) as [Hp|Hneg].
    - left. rewrite <- succ_eq_pos by done. apply succ_le_lt; [typeclasses eauto|done..].
    - pose proof (succ_le_lt radix2 fx m v Fm Fv Hlt) as Hs. unfold Ulp.succ in Hs. rewrite Rle_bool_false in Hs by done.
      unfold pred_pos in Hs. destruct (Req_bool_spec (- m) (bpow radix2 (mag radix2 (- m) - 1))) as [E|NE].
      + right. set (k := (mag radix2 (- m) - 1)%Z) in *. assert (m = (IZR (-1) * bpow radix2 k)%R) as Em by lra.
        assert (-1074 <= k).
        { destruct (fmt_shape (- m)%R) as (V & e & Ev & _ & He & HV); [by apply generic_format_opp|lra|].
          apply (le_bpow radix2). apply Rle_trans with (bpow radix2 e); [by apply bpow_le|]. rewrite <- E, Ev.
          pose proof (bpow_gt_0 radix2 e). assert (1 <= IZR V)%R by (apply IZR_le; lia). nra. }
        rewrite Em, <- Rmult_assoc, <- mult_IZR. apply small_format; lia.
      + left. rewrite ulp_opp in Hs. lra. }
  - assert (Rabs (rnd (N * m) - N * m) <= N * (/ 2 * fulp m))%R as Hd.
    { eapply Rle_trans; [apply (rnd_nearest _ b Fb)|].
      replace (b - N * m)%R with (N * - (m - b / N))%R by (field; lra).
      rewrite Rabs_mult, Rabs_Ropp, (Rabs_pos_eq N) by lra. apply Rmult_le_compat_l; [lra|].
      rewrite Hm. exact (error_le_half_ulp_round radix2 fx (fun x => negb (Z.even x)) (b / N)). }
    apply Rabs_le_inv in Hd. nra.
  - rewrite rnd_id by done. nra.
Qed.

Notation N1 := (IZR (n + 1)).
Lemma EN1 : (N1 = N + 1)%R.
Proof. by rewrite plus_IZR. Qed.

(** A positive sample above the mean. *)
Lemma toward_pos v s : fmt v -> (0 < v)%R -> (s <= N1 * v - N * (v - fpred v) / 2)%R -> (rnd (rnd s / N1) <= v)%R.
Proof.
  intros Fv Hv Hs. pose proof HN as HN. rewrite EN1 in *.
  destruct (Rle_or_lt (rnd (rnd s / (N + 1))) v) as [|Hc]; [done|exfalso].
  apply rnd_below in Hc; [|done]. rewrite succ_eq_pos in Hc by lra.
  destruct (pred_gap v Fv Hv) as (V & e & Ev & Eu & He & HV & G1 & G2 & G3). rewrite Eu in Hc.
  set (h := bpow radix2 e) in *. assert (0 < h)%R as Hh by apply bpow_gt_0.
  set (b := rnd s) in *. assert ((N + 1) * (v + h / 2) <= b)%R as Hb.
  { apply Rmult_le_reg_r with (/ (N + 1))%R; [apply Rinv_0_lt_compat; lra|].
    replace ((N + 1) * (v + h / 2) * / (N + 1))%R with ((v + (v + h)) / 2)%R by (field; lra). exact Hc. }
  assert (fmt b) as Fb by apply rnd_fmt. assert (0 < b)%R as Hb0 by nra.
  set (p := fpred b). assert (0 <= p)%R as Hp by (by apply pred_ge_0; [typeclasses eauto|..]).
  assert (fmt p) as Fp by (apply generic_format_pred; [typeclasses eauto|done]).
  assert (p + fulp p = b)%R as Epb by (by apply pred_plus_ulp; [typeclasses eauto|..]).
  assert (p < b)%R as Hpb by (apply pred_lt_id; lra).
  assert ((p + b) / 2 <= s)%R as Hmid.
  { replace b with (fsucc p); [|by apply succ_pred; [typeclasses eauto|]]. apply rnd_below; [done|]. exact Hpb. }
  assert (N * (v - fpred v) + (N + 1) * h <= fulp p)%R as HG by lra.
  assert (0 < N * (v - fpred v))%R as Hg1 by (apply Rmult_lt_0_compat; lra).
  assert (h <= N * h)%R as Hg2 by nra. assert (h < fulp p)%R as Hg0 by lra.
  assert (p < (N + 1) * v)%R as Hp2 by lra.
  assert (bpow radix2 (e + 52) = IZR (2 ^ 52) * h)%R as E52.
  { rewrite Z.add_comm, bpow_plus, (IZR_Zpower radix2) by lia. done. }
  destruct (Z_le_gt_dec V (2 ^ 52)) as [HV2|HV2].
  - destruct (gap_power p e (N + 1)) as (j & Ej & _ & Hj); [done|done| |exact Hg0|].
    { rewrite E52. eapply Rlt_le_trans; [exact Hp2|]. apply Rmult_le_compat_l; [lra|]. rewrite Ev.
      apply Rmult_le_compat_r; [lra|]. by apply IZR_le. }
    fold h in Ej. nra.
  - rewrite G3 in HG by lia.
    destruct (gap_power p e (2 * N + 2)) as (j & Ej & Hj0 & Hj); [done|done| |exact Hg0|].
    { rewrite E52. eapply Rlt_le_trans; [exact Hp2|].
      replace ((2 * N + 2) * (IZR (2 ^ 52) * h))%R with ((N + 1) * (IZR (2 * 2 ^ 52) * h))%R by (rewrite mult_IZR; ring).
      apply Rmult_le_compat_l; [lra|]. rewrite Ev. apply Rmult_le_compat_r; [lra|]. apply IZR_le. lia. }
    fold h in Ej.
    apply (no_power n j Hj0).
    + apply le_IZR. rewrite plus_IZR, mult_IZR. apply Rmult_le_reg_r with h; [done|]. lra.
    + apply lt_IZR. rewrite plus_IZR, mult_IZR. done.
Qed.

(** The mirror image: a positive sample below the mean. *)
Lemma toward_neg v s : fmt v -> (0 < v)%R -> (N1 * v + N * (fsucc v - v) / 2 <= s)%R -> (v <= rnd (rnd s / N1))%R.
Proof.
  intros Fv Hv Hs. pose proof HN as HN. rewrite EN1 in *.
  destruct (Rle_or_lt v (rnd (rnd s / (N + 1)))) as [|Hc]; [done|exfalso].
  apply rnd_above in Hc; [|done]. rewrite succ_eq_pos in Hs by lra.
  destruct (pred_gap v Fv Hv) as (V & e & Ev & Eu & He & HV & G1 & G2 & G3). rewrite Eu in Hs.
  set (h := bpow radix2 e) in *. assert (0 < h)%R as Hh by apply bpow_gt_0.
  set (b := rnd s) in *. assert (b <= (N + 1) * (v - (v - fpred v) / 2))%R as Hb.
  { apply Rmult_le_reg_r with (/ (N + 1))%R; [apply Rinv_0_lt_compat; lra|].
    replace ((N + 1) * (v - (v - fpred v) / 2) * / (N + 1))%R with ((v + fpred v) / 2)%R by (field; lra). exact Hc. }
  assert (fmt b) as Fb by apply rnd_fmt.
  assert (0 <= b)%R as Hb0.
  { unfold b. apply round_ge_generic; [typeclasses eauto..|apply generic_format_0|nra]. }
  assert (b < s)%R as Hbs by nra.
  assert (s <= (b + (b + fulp b)) / 2)%R as Hmid.
  { pose proof (half_ulp s) as Hh0. fold b in Hh0.
    destruct (Rle_or_lt s ((b + fsucc b) / 2)) as [Q|Q]; [by rewrite succ_eq_pos in Q|exfalso].
    pose proof (round_N_ge_midp radix2 fx (fun x => negb (Z.even x)) (fsucc b) s) as R.
    assert (fmt (fsucc b)) as Fs by (apply generic_format_succ; [typeclasses eauto|done]).
    specialize (R Fs). rewrite pred_succ in R by (done || typeclasses eauto).
    assert (fsucc b <= b)%R as R'. { unfold b at 2. apply R. lra. }
    rewrite succ_eq_pos in R' by done.
    assert (0 < fulp b)%R; [|lra]. apply Rlt_le_trans with (fulp 0).
    - change (fulp 0) with (ulp radix2 (FLT_exp (-1074) 53) 0). rewrite ulp_FLT_0 by typeclasses eauto. apply bpow_gt_0.
    - apply ulp_le; [typeclasses eauto..|]. rewrite Rabs_R0. apply Rabs_pos. }
  assert (N * h + (N + 1) * (v - fpred v) <= fulp b)%R as HG by lra.
  assert (0 < (N + 1) * (v - fpred v))%R as Hg1 by (apply Rmult_lt_0_compat; lra).
  assert (h <= N * h)%R as Hg2 by nra. assert (h < fulp b)%R as Hg0 by lra.
  assert (b < (N + 1) * v)%R as Hp2 by lra.
  assert (bpow radix2 (e + 52) = IZR (2 ^ 52) * h)%R as E52.
  { rewrite Z.add_comm, bpow_plus, (IZR_Zpower radix2) by lia. done. }
  destruct (Z_le_gt_dec V (2 ^ 52)) as [HV2|HV2].
  - destruct (gap_power b e (N + 1)) as (j & Ej & _ & Hj); [done|done| |exact Hg0|].
    { rewrite E52. eapply Rlt_le_trans; [exact Hp2|]. apply Rmult_le_compat_l; [lra|]. rewrite Ev.
      apply Rmult_le_compat_r; [lra|]. by apply IZR_le. }
    fold h in Ej. nra.
  - rewrite G3 in HG by lia.
    destruct (gap_power b e (2 * N + 2)) as (j & Ej & Hj0 & Hj); [done|done| |exact Hg0|].
    { rewrite E52. eapply Rlt_le_trans; [exact Hp2|].
      replace ((2 * N + 2) * (IZR (2 ^ 52) * h))%R with ((N + 1) * (IZR (2 * 2 ^ 52) * h))%R by (rewrite mult_IZR; ring).
      apply Rmult_le_compat_l; [lra|]. rewrite Ev. apply Rmult_le_compat_r; [lra|]. apply IZR_le. lia. }
    fold h in Ej.
    apply (no_power n j Hj0).
    + apply le_IZR. rewrite plus_IZR, mult_IZR. apply Rmult_le_reg_r with h; [done|]. lra.
    + apply lt_IZR. rewrite plus_IZR, mult_IZR. done.
Qed.

Lemma toward_above m v b : fmt b -> m = rnd (b / N) -> fmt v -> (m < v)%R ->
  (rnd (rnd (rnd (N * m) + v) / N1) <= v)%R.
Proof.
  intros Fb Hm Fv Hlt. pose proof (product_half m v b Fb Hm Fv Hlt) as Ha. pose proof HN as HN. pose proof EN1 as E1.
  assert (fmt m) as Fm by (subst; apply rnd_fmt).
  set (a := rnd (N * m)) in *. destruct (Rtotal_order v 0) as [Hv|[->|Hv]].
  - (* below zero: the mirror image *)
    assert (fsucc (- v) <= - m)%R as Hs.
    { apply succ_le_lt; [typeclasses eauto|by apply generic_format_opp..|lra]. }
    pose proof (toward_neg (- v) (- (a + v))) as T.
    assert (- v <= rnd (rnd (- (a + v)) / N1))%R as T'.
    { apply T; [by apply generic_format_opp|lra|]. rewrite E1. nra. }
    rewrite rnd_opp in T'. unfold Rdiv in T'. rewrite Ropp_mult_distr_l_reverse, rnd_opp in T'. unfold Rdiv. lra.
  - rewrite Rplus_0_r. assert (fmt a) as Fa by apply rnd_fmt. rewrite (rnd_id a) by done.
    apply round_le_generic; [typeclasses eauto..|apply generic_format_0|].
    apply Rmult_le_reg_r with N1; [lra|]. unfold Rdiv. rewrite Rmult_assoc, Rinv_l, Rmult_1_r, Rmult_0_l by lra. nra.
  - apply toward_pos; [done..|]. rewrite E1.
    assert (m <= fpred v)%R as Hp by (apply pred_ge_gt; [typeclasses eauto|done..]). nra.
Qed.

(** The new mean lies on the same side of the sample as the old one. *)
Lemma toward m v b : fmt b -> m = rnd (b / N) -> fmt v ->
  let m' := rnd (rnd (rnd (N * m) + v) / N1) in (m < v -> m' <= v)%R /\ (v < m -> v <= m')%R.
Proof.
  intros Fb Hm Fv m'. split; intros Hlt; [by apply (toward_above m v b)|].
  assert (rnd (rnd (rnd (N * - m) + - v) / N1) <= - v)%R as T.
  { apply (toward_above (- m) (- v) (- b)); [by apply generic_format_opp| |by apply generic_format_opp|lra].
    unfold Rdiv. rewrite Ropp_mult_distr_l_reverse, rnd_opp. unfold Rdiv in Hm. by rewrite <- Hm. }
  rewrite Ropp_mult_distr_r_reverse, rnd_opp, <- Ropp_plus_distr, rnd_opp in T.
  unfold Rdiv in T. rewrite Ropp_mult_distr_l_reverse, rnd_opp in T. unfold m', Rdiv. lra.
Qed.
End toward.
