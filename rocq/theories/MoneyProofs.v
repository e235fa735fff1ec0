From Coq Require Import String.
From Verif Require Import Base Money MoneySpec.
From Coq Require Import ZifyBool.

Ltac dif := match goal with |- context [if ?c then _ else _] => destruct c end.
Ltac pass := match goal with |- context [if ?c then _ else _] => replace c with true by lia end.

Lemma validate_iff m : money_wf m -> (ValidateMoney m = SOk <-> valid_money m).
Proof.
  unfold money_wf, in_int64, in_int32, ValidateMoney, valid_money, int64_min, int64_max, int32_min, int32_max.
  intros [Hu Hn].
  destruct (Nat.eqb_spec (String.length (currency m)) 0) as [E0|E0];
  destruct (Nat.eqb_spec (String.length (currency m)) 3) as [E3|E3]; cbn [orb negb]; try lia;
  try (split; [discriminate|intros [H _]; congruence]).
    destruct (((0 <? units m) && (nanos m <? 0)) || ((units m <? 0) && (0 <? nanos m))) eqn:E1.
  { split; [discriminate|]. intros (_ & _ & _ & H). lia. }
  destruct ((nanos m <? - (999999999)) || (999999999 <? nanos m)) eqn:E2.
  { split; [discriminate|]. intros (_ & _ & H & _). lia. }
  split; [|reflexivity]. intros _. lia.
Qed.

Lemma validate_cases m : ValidateMoney m = SOk \/ ValidateMoney m = SInvalidArgument.
Proof.
  unfold ValidateMoney. cbv zeta.
  destruct (_ || _); [auto|]. destruct (_ || _); [auto|]. destruct (_ || _); auto.
Qed.

Definition nano_sum (na nb : Z) : Z * Z :=
  if 1000000000 <=? na + nb then (1, na + nb - 1000000000)
  else if na + nb <=? -1000000000 then (-1, na + nb + 1000000000)
  else (0, na + nb).

Lemma add_nanos_ok na nb :
  -999999999 <= na <= 999999999 -> -999999999 <= nb <= 999999999 ->
  add_nanos na nb = Ok (nano_sum na nb).
Proof.
  intros Ha Hb. unfold add_nanos, nano_sum, add32, in_int32, int32_min, int32_max, kBillion. change (- (1000000000)) with (-1000000000).
  pass.
  cbn [obind].
  destruct (1000000000 <=? na + nb) eqn:E1.
  - pass.
    cbn [obind]. f_equal; f_equal; lia.
  - destruct (na + nb <=? -1000000000) eqn:E2; [|reflexivity].
    pass.
    reflexivity.
Qed.

Definition fixed (su sn : Z) : Z * Z :=
  if (0 <? su) && (sn <? 0) then (su - 1, sn + 1000000000)
  else if (su <? 0) && (0 <? sn) then (su + 1, sn - 1000000000)
  else (su, sn).

Lemma fix_signs_ok m su sn :
  int64_min <= su <= int64_max -> -999999999 <= sn <= 999999999 ->
  fix_signs m su sn = Ok (fixed su sn).
Proof.
  unfold fix_signs, fixed, add64, add32, in_int64, in_int32, int64_min, int64_max, int32_min, int32_max, kBillion. change (- (1000000000)) with (-1000000000).
  intros Hu Hn.
  destruct ((0 <? su) && (sn <? 0)) eqn:E1.
  - pass.
    pass.
    cbn [obind]. f_equal; f_equal; lia.
  - destruct ((su <? 0) && (0 <? sn)) eqn:E2; [|reflexivity].
    pass.
    pass.
    cbn [obind]. f_equal; f_equal; lia.
Qed.

Lemma wrap64_range x : int64_min <= wrap64 x <= int64_max.
Proof.
  unfold wrap64, int64_min, int64_max, two64.
  pose proof (Z.mod_pos_bound (x - -9223372036854775808) 18446744073709551616 ltac:(lia)). lia.
Qed.

Lemma add64_wrap x y : add64 Wrap x y = Ok (wrap64 (x + y)).
Proof.
  unfold add64. destruct (in_int64 (x + y)) eqn:E; [|reflexivity].
  f_equal. unfold in_int64, wrap64, int64_min, int64_max, two64 in *.
  rewrite Z.mod_small; lia.
Qed.

Lemma add64_in m x y : int64_min <= x + y <= int64_max -> add64 m x y = Ok (x + y).
Proof. intros H. unfold add64, in_int64. replace ((int64_min <=? x + y) && (x + y <=? int64_max)) with true by lia. reflexivity. Qed.

Lemma wrap64_id x : int64_min <= x <= int64_max -> wrap64 x = x.
Proof. unfold wrap64, int64_min, int64_max, two64. intros. rewrite Z.mod_small; lia. Qed.
Lemma wrap64_hi x : int64_max < x <= int64_max + two64 -> wrap64 x = x - two64.
Proof.
  unfold wrap64, int64_min, int64_max, two64. intros.
  assert (x - -9223372036854775808 = (x - 9223372036854775808) + 1 * 18446744073709551616) as -> by lia.
  rewrite Z.mod_add by lia. rewrite Z.mod_small; lia.
Qed.
Lemma wrap64_lo x : int64_min - two64 <= x < int64_min -> wrap64 x = x + two64.
Proof.
  unfold wrap64, int64_min, int64_max, two64. intros.
  assert (x - -9223372036854775808 = (x + 27670116110564327424) + (-1) * 18446744073709551616) as -> by lia.
  rewrite Z.mod_add by lia. rewrite Z.mod_small; lia.
Qed.

Lemma sign_pos m : valid_money m -> (0 < GetAmountSign m <-> 0 < nano_amount m).
Proof.
  intros (_ & _ & Hn & Hs). unfold GetAmountSign, nano_amount.
  destruct (0 <? units m) eqn:?; [lia|]. destruct (units m <? 0) eqn:?; [lia|].
  destruct (0 <? nanos m) eqn:?; [lia|]. destruct (nanos m <? 0) eqn:?; lia.
Qed.
Lemma sign_neg m : valid_money m -> (GetAmountSign m < 0 <-> nano_amount m < 0).
Proof.
  intros (_ & _ & Hn & Hs). unfold GetAmountSign, nano_amount.
  destruct (0 <? units m) eqn:?; [lia|]. destruct (units m <? 0) eqn:?; [lia|].
  destruct (0 <? nanos m) eqn:?; [lia|]. destruct (nanos m <? 0) eqn:?; lia.
Qed.

(** The unit sums as integers. *)
Definition raw_units (a b : money) : Z := units a + units b + fst (nano_sum (nanos a) (nanos b)).

Definition finish (a b : money) (nc su sn : Z) : status_code * money :=
  if (0 <? GetAmountSign a) && (0 <? GetAmountSign b) && (su <=? 0) then
    (SOutOfRange, Money (currency a) int64_max (kBillion - 1))
  else if (GetAmountSign a <? 0) && (GetAmountSign b <? 0) && ((0 <=? nc) || (0 <=? su)) then
    (SOutOfRange, Money (currency a) int64_min (- kBillion + 1))
  else (SOk, Money (currency a) su sn).

Lemma nano_sum_range na nb :
  -999999999 <= na <= 999999999 -> -999999999 <= nb <= 999999999 ->
  -999999999 <= snd (nano_sum na nb) <= 999999999 /\ -1 <= fst (nano_sum na nb) <= 1 /\
  fst (nano_sum na nb) * 1000000000 + snd (nano_sum na nb) = na + nb.
Proof.
  intros. unfold nano_sum. destruct (1000000000 <=? na + nb) eqn:?; [cbn [fst snd]; lia|].
  destruct (na + nb <=? -1000000000) eqn:?; cbn [fst snd]; lia.
Qed.

Lemma add_wrap_eq a b :
  valid_money a -> valid_money b -> currency a = currency b ->
  TryAddMoney Wrap a b =
    let nc := wrap64 (units a + units b) in
    let ns := nano_sum (nanos a) (nanos b) in
    let f := fixed (wrap64 (nc + fst ns)) (snd ns) in
    Ok (finish a b nc (fst f) (snd f)).
Proof.
  intros Ha Hb Hc. cbv zeta. unfold TryAddMoney. rewrite Hc, String.eqb_refl. cbn [negb].
  destruct Ha as (Hla & Hua & Hna & Hsa). destruct Hb as (Hlb & Hub & Hnb & Hsb).
  rewrite add_nanos_ok by lia. cbn [obind].
  destruct (nano_sum (nanos a) (nanos b)) as [carry sn] eqn:En.
  pose proof (nano_sum_range (nanos a) (nanos b) Hna Hnb) as Hr. rewrite En in Hr. cbn [fst snd] in *.
  rewrite !add64_wrap. cbn [obind]. rewrite add64_wrap. cbn [obind].
  rewrite fix_signs_ok; [|apply wrap64_range|lia]. cbn [obind].
  destruct (fixed _ _) as [su sn']. cbn [fst snd]. unfold finish. rewrite <- Hc.
  dif; [reflexivity|]. dif; reflexivity.
Qed.

(** The full case analysis in wrap-around arithmetic. *)
Lemma add_wrap_total a b :
  valid_money a -> valid_money b -> currency a = currency b ->
  exists st s, TryAddMoney Wrap a b = Ok (st, s) /\ currency s = currency a /\ valid_money s /\
    ((st = SOk /\ nano_amount s = nano_amount a + nano_amount b /\
      representable (nano_amount a + nano_amount b) /\ ~ spurious_overflow a b)
     \/ (st = SOutOfRange /\ nano_amount s = max_amount /\ 0 < nano_amount a /\ 0 < nano_amount b /\
         (max_amount < nano_amount a + nano_amount b \/ spurious_overflow a b))
     \/ (st = SOutOfRange /\ nano_amount s = min_amount /\ nano_amount a < 0 /\ nano_amount b < 0 /\
         (nano_amount a + nano_amount b < min_amount \/ spurious_overflow a b))).
Proof.
  intros Ha Hb Hc. rewrite add_wrap_eq by assumption. cbv zeta.
  pose proof (sign_pos a Ha) as Spa. pose proof (sign_pos b Hb) as Spb.
  pose proof (sign_neg a Ha) as Sna. pose proof (sign_neg b Hb) as Snb.
  destruct Ha as (Hla & Hua & Hna & Hsa). destruct Hb as (Hlb & Hub & Hnb & Hsb).
  pose proof (nano_sum_range (nanos a) (nanos b) Hna Hnb) as Hr.
  assert (Hns : nano_sum (nanos a) (nanos b) = (fst (nano_sum (nanos a) (nanos b)), snd (nano_sum (nanos a) (nanos b))))
    by apply surjective_pairing.
  destruct (nano_sum (nanos a) (nanos b)) as [carry sn] eqn:En. cbn [fst snd] in *.
  assert (Hcarry : (1000000000 <= nanos a + nanos b /\ carry = 1) \/ (nanos a + nanos b <= -1000000000 /\ carry = -1)
     \/ (-1000000000 < nanos a + nanos b < 1000000000 /\ carry = 0)).
  { clear - En. unfold nano_sum in En. destruct (1000000000 <=? nanos a + nanos b) eqn:?; [left; injection En; lia|].
    destruct (nanos a + nanos b <=? -1000000000) eqn:?; injection En; lia. }
  clear Hns En.
  remember (wrap64 (units a + units b)) as nc eqn:Enc.
  assert (Hnc : (int64_min <= units a + units b <= int64_max /\ nc = units a + units b) \/
     (int64_max < units a + units b /\ nc = units a + units b - two64) \/
     (units a + units b < int64_min /\ nc = units a + units b + two64)).
  { unfold int64_min, int64_max, two64 in *. subst nc.
    destruct (Z_lt_dec 9223372036854775807 (units a + units b)).
    - right; left. split; [lia|]. apply wrap64_hi; unfold int64_max, two64; lia.
    - destruct (Z_lt_dec (units a + units b) (-9223372036854775808)).
      + right; right. split; [lia|]. apply wrap64_lo; unfold int64_min, two64; lia.
      + left. split; [lia|]. apply wrap64_id; unfold int64_min, int64_max; lia. }
  clear Enc.
  remember (wrap64 (nc + carry)) as su eqn:Esu.
  assert (Hsu : (int64_min <= nc + carry <= int64_max /\ su = nc + carry) \/
     (int64_max < nc + carry /\ su = nc + carry - two64) \/
     (nc + carry < int64_min /\ su = nc + carry + two64)).
  { unfold int64_min, int64_max, two64 in *. subst su.
    destruct (Z_lt_dec 9223372036854775807 (nc + carry)).
    - right; left. split; [lia|]. apply wrap64_hi; unfold int64_max, two64; lia.
    - destruct (Z_lt_dec (nc + carry) (-9223372036854775808)).
      + right; right. split; [lia|]. apply wrap64_lo; unfold int64_min, two64; lia.
      + left. split; [lia|]. apply wrap64_id; unfold int64_min, int64_max; lia. }
  clear Esu.
  remember (fixed su sn) as f eqn:Ef. destruct f as [su' sn']. cbn [fst snd].
  assert (Hf : (0 < su /\ sn < 0 /\ su' = su - 1 /\ sn' = sn + 1000000000) \/
               (su < 0 /\ 0 < sn /\ su' = su + 1 /\ sn' = sn - 1000000000) \/
               ((su <= 0 \/ 0 <= sn) /\ (0 <= su \/ sn <= 0) /\ su' = su /\ sn' = sn)).
  { clear - Ef. unfold fixed in Ef. destruct ((0 <? su) && (sn <? 0)) eqn:?; [injection Ef; lia|].
    destruct ((su <? 0) && (0 <? sn)) eqn:?; injection Ef; lia. }
  clear Ef.
  unfold finish, valid_money, representable, spurious_overflow, max_amount, min_amount, nano_amount,
    int64_min, int64_max, two64, kBillion in *.
  destruct ((0 <? GetAmountSign a) && (0 <? GetAmountSign b) && (su' <=? 0)) eqn:E1.
  - eexists _, _. split; [reflexivity|]. cbn [currency units nanos].
    assert (0 < GetAmountSign a /\ 0 < GetAmountSign b /\ su' <= 0) as (P1 & P2 & P3) by lia.
    apply Spa in P1. apply Spb in P2. clear E1 Spa Spb Sna Snb.
    assert (Ga : 0 <= units a /\ 0 <= nanos a) by lia. assert (Gb : 0 <= units b /\ 0 <= nanos b) by lia.
    clear Hsa Hsb.
    split; [reflexivity|]. split; [repeat split; try assumption; lia|]. right; left.
    repeat split; try assumption.
    destruct Hcarry as [Hcarry|[Hcarry|Hcarry]]; try lia;
    destruct Hnc as [Hnc|[Hnc|Hnc]]; try lia;
    destruct Hsu as [Hsu|[Hsu|Hsu]]; try lia;
    destruct Hf as [Hf|[Hf|Hf]]; lia.
  - destruct ((GetAmountSign a <? 0) && (GetAmountSign b <? 0) && ((0 <=? nc) || (0 <=? su'))) eqn:E2.
    + eexists _, _. split; [reflexivity|]. cbn [currency units nanos].
      assert (GetAmountSign a < 0 /\ GetAmountSign b < 0 /\ (0 <= nc \/ 0 <= su')) as (P1 & P2 & P3) by lia.
      apply Sna in P1. apply Snb in P2. clear E1 E2 Spa Spb Sna Snb.
      assert (Ga : units a <= 0 /\ nanos a <= 0) by lia. assert (Gb : units b <= 0 /\ nanos b <= 0) by lia.
      clear Hsa Hsb.
      split; [reflexivity|]. split; [repeat split; try assumption; lia|]. right; right.
      repeat split; try assumption.
      destruct Hcarry as [Hcarry|[Hcarry|Hcarry]]; try lia;
      destruct Hnc as [Hnc|[Hnc|Hnc]]; try lia;
      destruct Hsu as [Hsu|[Hsu|Hsu]]; try lia;
      destruct Hf as [Hf|[Hf|Hf]]; try lia; destruct P3; lia.
    + eexists _, _. split; [reflexivity|]. cbn [currency units nanos].
      assert (Hx : ~ (0 < units a * 1000000000 + nanos a /\ 0 < units b * 1000000000 + nanos b /\ su' <= 0)).
      { rewrite <- Spa, <- Spb. lia. }
      assert (Hy : ~ (units a * 1000000000 + nanos a < 0 /\ units b * 1000000000 + nanos b < 0 /\ (0 <= nc \/ 0 <= su'))).
      { rewrite <- Sna, <- Snb. lia. }
      clear E1 E2 Spa Spb Sna Snb.
      split; [reflexivity|].
      assert (Hin : -9223372036854775808 <= units a + units b <= 9223372036854775807).
      { destruct Hsa as [Hsa|Hsa]; destruct Hsb as [Hsb|Hsb]; try lia;
        destruct Hnc as [Hnc|[Hnc|Hnc]]; try lia;
        destruct Hcarry as [Hcarry|[Hcarry|Hcarry]]; try lia;
        destruct Hsu as [Hsu|[Hsu|Hsu]]; try lia;
        destruct Hf as [Hf|[Hf|Hf]]; lia. }
      assert (Hnc' : nc = units a + units b) by lia. clear Hnc. subst nc.
      assert (Hin2 : -9223372036854775808 <= units a + units b + carry <= 9223372036854775807).
      { destruct Hsa as [Hsa|Hsa]; destruct Hsb as [Hsb|Hsb]; try lia;
        destruct Hcarry as [Hcarry|[Hcarry|Hcarry]]; try lia;
        destruct Hsu as [Hsu|[Hsu|Hsu]]; try lia;
        destruct Hf as [Hf|[Hf|Hf]]; lia. }
      assert (Hsu' : su = units a + units b + carry) by lia. clear Hsu. subst su.
      assert (Hv : (-9223372036854775808 <= su' <= 9223372036854775807) /\
                   (-999999999 <= sn' <= 999999999) /\ (0 <= su' /\ 0 <= sn' \/ su' <= 0 /\ sn' <= 0) /\
                   su' * 1000000000 + sn' = units a * 1000000000 + nanos a + (units b * 1000000000 + nanos b)).
      { destruct Hf as [Hf|[Hf|Hf]]; lia. }
      destruct Hv as (V1 & V2 & V3 & V4).
      split; [repeat split; try assumption; lia|]. left. repeat split; [lia|lia|lia|].
      destruct Hf as [Hf|[Hf|Hf]]; destruct Hcarry as [Hcarry|[Hcarry|Hcarry]]; lia.
Qed.

Lemma strict_wrap a b r : TryAddMoney Strict a b = Ok r -> TryAddMoney Wrap a b = Ok r.
Proof.
  unfold TryAddMoney. destruct (negb _); [auto|].
  destruct (add_nanos _ _) as [[c sn]| | |]; cbn [obind]; try discriminate.
  assert (Hadd : forall x y z, add64 Strict x y = Ok z -> add64 Wrap x y = Ok z).
  { intros x y z. unfold add64. destruct (in_int64 _); [auto|discriminate]. }
  destruct (add64 Strict (units a) (units b)) as [nc| | |] eqn:E1; cbn [obind]; try discriminate.
  rewrite (Hadd _ _ _ E1). cbn [obind].
  destruct (add64 Strict nc c) as [su| | |] eqn:E2; cbn [obind]; try discriminate.
  rewrite (Hadd _ _ _ E2). cbn [obind].
  destruct (fix_signs Strict su sn) as [[su' sn']| | |] eqn:E3; cbn [obind]; try discriminate.
  assert (fix_signs Wrap su sn = Ok (su', sn')) as ->; [|auto].
  revert E3. unfold fix_signs. destruct (_ && _).
  - destruct (add64 Strict su (-1)) eqn:E4; cbn [obind]; try discriminate. rewrite (Hadd _ _ _ E4). auto.
  - destruct (_ && _); [|auto].
    destruct (add64 Strict su 1) eqn:E4; cbn [obind]; try discriminate. rewrite (Hadd _ _ _ E4). auto.
Qed.

(** Strict mode: UB exactly when one of the two unit additions leaves int64. *)
Lemma strict_iff a b :
  valid_money a -> valid_money b -> currency a = currency b ->
  (is_ok (TryAddMoney Strict a b) = true <->
   int64_min <= units a + units b <= int64_max /\ int64_min <= raw_units a b <= int64_max).
Proof.
  intros Ha Hb Hc. unfold TryAddMoney, raw_units. rewrite Hc, String.eqb_refl. cbn [negb].
  destruct Ha as (Hla & Hua & Hna & Hsa). destruct Hb as (Hlb & Hub & Hnb & Hsb).
  rewrite add_nanos_ok by lia. cbn [obind].
  destruct (nano_sum (nanos a) (nanos b)) as [carry sn] eqn:En.
  pose proof (nano_sum_range (nanos a) (nanos b) Hna Hnb) as Hr. rewrite En in Hr. cbn [fst snd] in *.
  unfold add64 at 1. destruct (in_int64 (units a + units b)) eqn:E1; cbn [obind].
  2:{ split; [discriminate|]. unfold in_int64 in E1. lia. }
  unfold add64. destruct (in_int64 (units a + units b + carry)) eqn:E2; cbn [obind].
  2:{ split; [discriminate|]. unfold in_int64 in E2. lia. }
  unfold in_int64 in *.
  rewrite fix_signs_ok by lia. cbn [obind]. destruct (fixed _ _) as [su' sn'].
  split; [lia|]. intros _. dif; [reflexivity|]. dif; reflexivity.
Qed.

Lemma strict_only_overflow a b :
  valid_money a -> valid_money b -> currency a = currency b ->
  is_ok (TryAddMoney Strict a b) = true \/ TryAddMoney Strict a b = UB SignedOverflow.
Proof.
  intros Ha Hb Hc.
  assert (G : forall x, x = TryAddMoney Strict a b -> is_ok x = true \/ x = UB SignedOverflow); [|apply G; reflexivity].
  intros x. unfold TryAddMoney. rewrite Hc, String.eqb_refl. cbn [negb].
  destruct Ha as (Hla & Hua & Hna & Hsa). destruct Hb as (Hlb & Hub & Hnb & Hsb).
  rewrite add_nanos_ok by lia. cbn [obind].
  destruct (nano_sum (nanos a) (nanos b)) as [carry sn] eqn:En.
  pose proof (nano_sum_range (nanos a) (nanos b) Hna Hnb) as Hr. rewrite En in Hr. cbn [fst snd] in *.
  unfold add64 at 1. destruct (in_int64 (units a + units b)) eqn:E1; cbn [obind]; [|intros ->; right; reflexivity].
  unfold add64. destruct (in_int64 (units a + units b + carry)) eqn:E2; cbn [obind]; [|intros ->; right; reflexivity].
  unfold in_int64 in *.
  rewrite fix_signs_ok by lia. cbn [obind]. destruct (fixed _ _) as [su' sn'].
  intros ->. left. dif; [reflexivity|]. dif; reflexivity.
Qed.

Lemma mixed_currency m a b :
  currency a <> currency b -> TryAddMoney m a b = Ok (SInvalidArgument, Money "" 0 0).
Proof. intros H. unfold TryAddMoney. apply String.eqb_neq in H. rewrite H. reflexivity. Qed.

Lemma valid_inj a b : valid_money a -> valid_money b -> currency a = currency b ->
  nano_amount a = nano_amount b -> a = b.
Proof.
  destruct a as [ca ua na], b as [cb ub nb]. unfold valid_money, nano_amount. cbn [units nanos currency]. intros Ha Hb -> He.
  assert (ua = ub /\ na = nb) as [-> ->] by lia. reflexivity.
Qed.

Lemma spurious_sym a b : spurious_overflow a b -> spurious_overflow b a.
Proof. unfold spurious_overflow. lia. Qed.

Lemma add_comm_wrap a b :
  valid_money a -> valid_money b -> currency a = currency b ->
  TryAddMoney Wrap a b = TryAddMoney Wrap b a.
Proof.
  intros Ha Hb Hc.
  destruct (add_wrap_total a b Ha Hb Hc) as (st & s & -> & Hcs & Hv & H).
  destruct (add_wrap_total b a Hb Ha (eq_sym Hc)) as (st' & s' & -> & Hcs' & Hv' & H').
  pose proof (spurious_sym a b). pose proof (spurious_sym b a).
  assert (nano_amount s = nano_amount s' /\ st = st') as [He ->].
  { unfold representable, max_amount, min_amount, int64_min, int64_max in *.
    destruct H as [(? & ? & ? & ?)|[(? & ? & ? & ? & [?|?])|(? & ? & ? & ? & [?|?])]];
    destruct H' as [(? & ? & ? & ?)|[(? & ? & ? & ? & [?|?])|(? & ? & ? & ? & [?|?])]]; subst;
    try (exfalso; tauto); try (exfalso; lia); split; try reflexivity; try lia. }
  do 2 f_equal. apply valid_inj; congruence.
Qed.


Lemma add_comm_strict a b :
  currency a = currency b -> TryAddMoney Strict a b = TryAddMoney Strict b a.
Proof.
  intros Hc. unfold TryAddMoney. rewrite Hc, String.eqb_refl. cbn [negb].
  unfold add_nanos.
  assert (add32 (nanos b) (nanos a) = add32 (nanos a) (nanos b)) as -> by (unfold add32; rewrite Z.add_comm; reflexivity).
  assert (add64 Strict (units b) (units a) = add64 Strict (units a) (units b)) as ->
    by (unfold add64; rewrite Z.add_comm; reflexivity).
  destruct (add32 (nanos a) (nanos b)) as [n| | |]; cbn [obind]; try reflexivity.
  destruct (if kBillion <=? n then _ else _) as [[c sn]| | |]; cbn [obind]; try reflexivity.
  destruct (add64 Strict (units a) (units b)) as [nc| | |]; cbn [obind]; try reflexivity.
  destruct (add64 Strict nc c) as [su| | |]; cbn [obind]; try reflexivity.
  destruct (fix_signs Strict su sn) as [[su' sn']| | |]; cbn [obind]; try reflexivity.
  rewrite (andb_comm (0 <? GetAmountSign b)), (andb_comm (GetAmountSign b <? 0)). reflexivity.
Qed.

Lemma saturated_wrap a b debug :
  valid_money a -> valid_money b -> currency a = currency b ->
  exists st s, TryAddMoney Wrap a b = Ok (st, s) /\ SaturatedAddMoney debug Wrap a b = Ok s.
Proof.
  intros Ha Hb Hc. destruct (add_wrap_total a b Ha Hb Hc) as (st & s & E & _ & _ & H).
  exists st, s. split; [assumption|]. unfold SaturatedAddMoney. rewrite E. cbn [obind].
  assert (status_eqb st SOk || status_eqb st SOutOfRange = true) as ->.
  { destruct H as [(-> & _)|[(-> & _)|(-> & _)]]; reflexivity. }
  rewrite andb_false_r. reflexivity.
Qed.

Lemma validate_exact m : money_wf m ->
  (ValidateMoney m = SOk <-> valid_money m) /\ (ValidateMoney m = SInvalidArgument <-> ~ valid_money m).
Proof.
  intros Hwf. pose proof (validate_iff m Hwf) as H. split; [assumption|].
  destruct (validate_cases m) as [E|E]; rewrite E in *; [|intuition congruence].
  split; [discriminate|]. intros Hn. exfalso. apply Hn, H. reflexivity.
Qed.

Lemma raw_units_eq a b : raw_units a b = units a + units b + nano_carry a b.
Proof.
  unfold raw_units, nano_carry, nano_sum. dif; [reflexivity|]. dif; reflexivity.
Qed.

Lemma no_ub_partial a b :
  valid_money a -> valid_money b -> currency a = currency b ->
  (no_unit_overflow a b <-> is_ok (TryAddMoney Strict a b) = true) /\
  (~ no_unit_overflow a b <-> TryAddMoney Strict a b = UB SignedOverflow).
Proof.
  intros Ha Hb Hc. pose proof (strict_iff a b Ha Hb Hc) as H. rewrite raw_units_eq in H.
  fold (no_unit_overflow a b) in H. split; [tauto|].
  destruct (strict_only_overflow a b Ha Hb Hc) as [E|E].
  - split; [tauto|]. intros E'. rewrite E' in E. discriminate.
  - rewrite E in *. cbn in H. split; [reflexivity|]. intros _ Hn. apply H in Hn. discriminate.
Qed.

Lemma ok_cases m a b st s :
  valid_money a -> valid_money b -> currency a = currency b ->
  TryAddMoney m a b = Ok (st, s) -> TryAddMoney Wrap a b = Ok (st, s).
Proof. intros Ha Hb Hc. destruct m; [apply strict_wrap|auto]. Qed.

Lemma defined_when m a b :
  valid_money a -> valid_money b -> currency a = currency b -> (m = Wrap \/ no_unit_overflow a b) ->
  TryAddMoney m a b = TryAddMoney Wrap a b.
Proof.
  intros Ha Hb Hc [->|Hn]; [reflexivity|]. destruct m; [|reflexivity].
  apply (proj1 (no_ub_partial a b Ha Hb Hc)) in Hn.
  destruct (TryAddMoney Strict a b) as [r| | |] eqn:E; cbn [is_ok] in Hn; try discriminate Hn.
  symmetry. apply strict_wrap. assumption.
Qed.

Lemma add_exact_partial m a b :
  valid_money a -> valid_money b -> currency a = currency b ->
  representable (nano_amount a + nano_amount b) -> ~ spurious_overflow a b ->
  (m = Wrap \/ no_unit_overflow a b) ->
  exists s, TryAddMoney m a b = Ok (SOk, s) /\ valid_money s /\ currency s = currency a /\
            nano_amount s = nano_amount a + nano_amount b.
Proof.
  intros Ha Hb Hc Hr Hs Hm. rewrite defined_when by assumption.
  destruct (add_wrap_total a b Ha Hb Hc) as (st & s & E & Hcs & Hv & H).
  exists s. unfold representable in Hr.
  destruct H as [(-> & He & _)|[(-> & He & _ & _ & [H|H])|(-> & He & _ & _ & [H|H])]]; try tauto; try lia.
Qed.

Lemma spurious_no_unit_overflow a b : spurious_overflow a b -> valid_money a -> valid_money b -> no_unit_overflow a b.
Proof.
  intros (Hu & Hv & _) (_ & _ & Ha & _) (_ & _ & Hb & _). unfold no_unit_overflow, nano_carry, int64_min, int64_max.
  rewrite Hu, Hv. dif; [lia|]. dif; lia.
Qed.

Lemma spurious_always m a b :
  valid_money a -> valid_money b -> currency a = currency b -> spurious_overflow a b ->
  exists s, TryAddMoney m a b = Ok (SOutOfRange, s) /\ representable (nano_amount a + nano_amount b).
Proof.
  intros Ha Hb Hc Hs. rewrite defined_when; [|assumption..|right; apply spurious_no_unit_overflow; assumption].
  destruct (add_wrap_total a b Ha Hb Hc) as (st & s & E & Hcs & Hv & H). exists s.
  assert (representable (nano_amount a + nano_amount b)).
  { destruct Hs as (Hu & Hw & _), Ha as (_ & _ & Ha & _), Hb as (_ & _ & Hb & _).
    unfold representable, nano_amount, min_amount, max_amount, int64_min, int64_max. rewrite Hu, Hw. lia. }
  destruct H as [(-> & _ & _ & H)|[(-> & _)|(-> & _)]]; tauto.
Qed.

Lemma saturates debug a b :
  valid_money a -> valid_money b -> currency a = currency b ->
  ~ representable (nano_amount a + nano_amount b) ->
  exists s, TryAddMoney Wrap a b = Ok (SOutOfRange, s) /\ SaturatedAddMoney debug Wrap a b = Ok s /\
    valid_money s /\ currency s = currency a /\
    (0 < nano_amount a + nano_amount b -> nano_amount s = max_amount) /\
    (nano_amount a + nano_amount b < 0 -> nano_amount s = min_amount).
Proof.
  intros Ha Hb Hc Hr.
  destruct (saturated_wrap a b debug Ha Hb Hc) as (st0 & s0 & E0 & Es).
  destruct (add_wrap_total a b Ha Hb Hc) as (st & s & E & Hcs & Hv & H).
  rewrite E in E0. injection E0 as <- <-. exists s.
  destruct H as [(-> & He & ? & _)|[(-> & He & ? & ? & H)|(-> & He & ? & ? & H)]]; [tauto| |];
  repeat split; try assumption; try apply Hv; try lia.
Qed.

Lemma add_exact_refuted : exists a b, valid_money a /\ valid_money b /\ currency a = currency b /\
  representable (nano_amount a + nano_amount b) /\
  forall m, TryAddMoney m a b = Ok (SOutOfRange, Money "USD" int64_max 999999999).
Proof.
  exists (Money "USD" 0 1), (Money "USD" 0 2).
  repeat split; try (vm_compute; congruence); try (left; vm_compute; split; congruence). 
Qed.

Lemma ub_refuted : exists a b, valid_money a /\ valid_money b /\ currency a = currency b /\
  TryAddMoney Strict a b = UB SignedOverflow.
Proof.
  exists (Money "USD" int64_max 0), (Money "USD" 1 0).
  repeat split; try (vm_compute; congruence); try (left; vm_compute; split; congruence).
Qed.

Lemma comm_closed m a b :
  valid_money a -> valid_money b -> currency a = currency b ->
  TryAddMoney m a b = TryAddMoney m b a /\
  (forall st s, TryAddMoney m a b = Ok (st, s) -> valid_money s /\ currency s = currency a).
Proof.
  intros Ha Hb Hc. split.
  - destruct m; [apply add_comm_strict|apply add_comm_wrap]; assumption.
  - intros st s E. apply ok_cases in E; try assumption.
    destruct (add_wrap_total a b Ha Hb Hc) as (st' & s' & E' & Hcs & Hv & _).
    rewrite E in E'. injection E' as -> ->. split; assumption.
Qed.

Lemma saturates_strict_refuted a b :
  valid_money a -> valid_money b -> currency a = currency b ->
  ~ representable (nano_amount a + nano_amount b) -> TryAddMoney Strict a b = UB SignedOverflow.
Proof.
  intros Va Vb Hc Hn. apply (no_ub_partial a b Va Vb Hc).
  intros [H1 H2]. apply Hn. clear Hn.
  destruct Va as (_ & Ha & Hna & _), Vb as (_ & Hb & Hnb & _).
  unfold representable, min_amount, max_amount, nano_amount, nano_carry, int64_min, int64_max in *.
  destruct (Z.leb_spec 1000000000 (nanos a + nanos b)); [lia|].
  destruct (Z.leb_spec (nanos a + nanos b) (-1000000000)); lia.
Qed.
