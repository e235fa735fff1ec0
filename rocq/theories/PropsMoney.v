(** Property theorems about src/money_utils.cc (C01-C06).  Specification: MoneySpec.v. *)
From Coq Require Import String.
From Verif Require Import Base Money MoneySpec MoneyProofs.

(** C01: ValidateMoney accepts exactly the valid amounts, and otherwise says INVALID_ARGUMENT. *)
Theorem C01_validate_accepts_exactly_valid : forall m, money_wf m ->
  (ValidateMoney m = SOk <-> valid_money m) /\
  (ValidateMoney m = SInvalidArgument <-> ~ valid_money m).
Proof. exact validate_exact. Qed.
Print Assumptions C01_validate_accepts_exactly_valid.
Example C01_example : money_wf (Money "USD" (-3) (-999999999)) /\ valid_money (Money "USD" (-3) (-999999999))
  /\ ~ valid_money (Money "USD" 1 (-1)).
Proof. repeat split; try (vm_compute; congruence); [right; vm_compute; split; congruence|].
  intros (_ & _ & _ & H). cbn in H. lia. Qed.

(** C02 is false of the code: two valid sub-unit amounts of the same sign "overflow", in either arithmetic mode. *)
Theorem C02_add_exact_refuted : exists a b, valid_money a /\ valid_money b /\ currency a = currency b /\
  representable (nano_amount a + nano_amount b) /\
  forall m, TryAddMoney m a b = Ok (SOutOfRange, Money "USD" int64_max 999999999).
Proof. exact add_exact_refuted. Qed.
Print Assumptions C02_add_exact_refuted.

(** C02 with the exact guard: outside [spurious_overflow] every representable sum is computed exactly, in
    either arithmetic mode.  Missing from the full claim: exactly the pairs in [spurious_overflow]. *)
Theorem C02_add_exact_partial : forall m a b,
  valid_money a -> valid_money b -> currency a = currency b ->
  representable (nano_amount a + nano_amount b) -> ~ spurious_overflow a b ->
  (m = Wrap \/ no_unit_overflow a b) ->
  exists s, TryAddMoney m a b = Ok (SOk, s) /\ valid_money s /\ currency s = currency a /\
            nano_amount s = nano_amount a + nano_amount b.
Proof. exact add_exact_partial. Qed.
Print Assumptions C02_add_exact_partial.
Example C02_example : let a := Money "USD" (-2) (-7) in let b := Money "USD" 5 3 in
  valid_money a /\ valid_money b /\ representable (nano_amount a + nano_amount b) /\ ~ spurious_overflow a b /\
  no_unit_overflow a b /\ TryAddMoney Strict a b = Ok (SOk, Money "USD" 2 999999996).
Proof. repeat split; try (vm_compute; congruence); try (left; vm_compute; split; congruence); try (right; vm_compute; split; congruence).
  intros (H & _). cbn in H. lia. Qed.

(** The guard is exact: on the pairs it excludes the code always reports an overflow. *)
Theorem C02_spurious_overflow_always : forall m a b,
  valid_money a -> valid_money b -> currency a = currency b -> spurious_overflow a b ->
  exists s, TryAddMoney m a b = Ok (SOutOfRange, s) /\ representable (nano_amount a + nano_amount b).
Proof. exact spurious_always. Qed.
Print Assumptions C02_spurious_overflow_always.

(** C03 is false of the code under the C++ rules: every sum that does not fit overflows a signed addition first. *)
Theorem C03_saturates_refuted : forall a b,
  valid_money a -> valid_money b -> currency a = currency b ->
  ~ representable (nano_amount a + nano_amount b) -> TryAddMoney Strict a b = UB SignedOverflow.
Proof. exact saturates_strict_refuted. Qed.
Print Assumptions C03_saturates_refuted.

(** C03 with wrap-around arithmetic: sums that do not fit saturate on the side of their sign.  Missing: compilers
    that use the undefinedness of signed overflow. *)
Theorem C03_saturates_partial : forall debug a b,
  valid_money a -> valid_money b -> currency a = currency b ->
  ~ representable (nano_amount a + nano_amount b) ->
  exists s, TryAddMoney Wrap a b = Ok (SOutOfRange, s) /\ SaturatedAddMoney debug Wrap a b = Ok s /\
    valid_money s /\ currency s = currency a /\
    (0 < nano_amount a + nano_amount b -> nano_amount s = max_amount) /\
    (nano_amount a + nano_amount b < 0 -> nano_amount s = min_amount).
Proof. exact saturates. Qed.
Print Assumptions C03_saturates_partial.
Example C03_example : let a := Money "USD" int64_min (-500000000) in
  valid_money a /\ ~ representable (nano_amount a + nano_amount a) /\
  TryAddMoney Wrap a a = Ok (SOutOfRange, Money "USD" int64_min (-999999999)).
Proof. repeat split; try (vm_compute; congruence); [right; vm_compute; split; congruence|].
  intros [H _]. vm_compute in H. apply H. reflexivity. Qed.

(** SaturatedAddMoney returns the TryAddMoney result and never aborts on valid amounts of one currency. *)
Theorem C03_saturated_is_try : forall a b debug,
  valid_money a -> valid_money b -> currency a = currency b ->
  exists st s, TryAddMoney Wrap a b = Ok (st, s) /\ SaturatedAddMoney debug Wrap a b = Ok s.
Proof. exact saturated_wrap. Qed.
Print Assumptions C03_saturated_is_try.

(** C04 is false of the code: the overflowing sums it wants to detect are undefined behaviour. *)
Theorem C04_no_ub_refuted : exists a b, valid_money a /\ valid_money b /\ currency a = currency b /\
  TryAddMoney Strict a b = UB SignedOverflow.
Proof. exact ub_refuted. Qed.
Print Assumptions C04_no_ub_refuted.

(** C04, exactly when it holds: addition is defined iff the unit sum with and without the carry of the
    nanos fits int64. *)
Theorem C04_no_ub_partial : forall a b,
  valid_money a -> valid_money b -> currency a = currency b ->
  (no_unit_overflow a b <-> is_ok (TryAddMoney Strict a b) = true) /\
  (~ no_unit_overflow a b <-> TryAddMoney Strict a b = UB SignedOverflow).
Proof. exact no_ub_partial. Qed.
Print Assumptions C04_no_ub_partial.
Example C04_example : no_unit_overflow (Money "USD" int64_max 5) (Money "USD" (-7) (-999999999)) /\
  ~ no_unit_overflow (Money "USD" int64_max 5) (Money "USD" 0 999999999).
Proof. split; [unfold no_unit_overflow; cbn; unfold int64_min, int64_max; lia|].
  unfold no_unit_overflow; cbn; unfold int64_min, int64_max; lia. Qed.

(** C05 *)
Theorem C05_mixed_currency_rejected : forall m a b,
  currency a <> currency b -> TryAddMoney m a b = Ok (SInvalidArgument, Money "" 0 0).
Proof. exact mixed_currency. Qed.
Print Assumptions C05_mixed_currency_rejected.
Example C05_example : currency (Money "USD" 1 2) <> currency (Money "EUR" 1 2).
Proof. discriminate. Qed.

(** C06 *)
Theorem C06_commutative_and_closed : forall m a b,
  valid_money a -> valid_money b -> currency a = currency b ->
  TryAddMoney m a b = TryAddMoney m b a /\
  (forall st s, TryAddMoney m a b = Ok (st, s) -> valid_money s /\ currency s = currency a).
Proof. exact comm_closed. Qed.
Print Assumptions C06_commutative_and_closed.
Example C06_example : let a := Money "USD" 0 (-1) in let b := Money "USD" 1 0 in
  valid_money a /\ valid_money b /\ TryAddMoney Strict a b = Ok (SOk, Money "USD" 0 999999999).
Proof. repeat split; try (vm_compute; congruence); [right|left]; vm_compute; split; congruence. Qed.
