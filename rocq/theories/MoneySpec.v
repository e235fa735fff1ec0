(** Specification of money arithmetic, independent of the implementation: an amount is an exact
    integer number of nano-units. *)
From Coq Require Import String.
From Verif Require Import Base Money.

Definition nano_amount (m : money) : Z := units m * 1000000000 + nanos m.

(** A valid amount, as documented in money_utils.h:27-33. *)
Definition valid_money (m : money) : Prop :=
  String.length (currency m) = 3%nat /\
  int64_min <= units m <= int64_max /\
  -999999999 <= nanos m <= 999999999 /\
  (0 <= units m /\ 0 <= nanos m \/ units m <= 0 /\ nanos m <= 0).

(** The largest and smallest representable amounts, in nano-units. *)
Definition max_amount : Z := int64_max * 1000000000 + 999999999.
Definition min_amount : Z := int64_min * 1000000000 - 999999999.
Definition representable (x : Z) : Prop := min_amount <= x <= max_amount.

(** The inputs on which the implementation reports an overflow that does not exist: both amounts
    below one unit, of the same strict sign and (for positive ones) summing to less than one unit. *)
Definition spurious_overflow (a b : money) : Prop :=
  units a = 0 /\ units b = 0 /\
  (0 < nanos a /\ 0 < nanos b /\ nanos a + nanos b < 1000000000 \/ nanos a < 0 /\ nanos b < 0).

(** The amount of whole units carried out of the nanos. *)
Definition nano_carry (a b : money) : Z :=
  if 1000000000 <=? nanos a + nanos b then 1 else if nanos a + nanos b <=? -1000000000 then -1 else 0.

(** The unit sum fits int64 both before and after adding the carry. *)
Definition no_unit_overflow (a b : money) : Prop :=
  int64_min <= units a + units b <= int64_max /\
  int64_min <= units a + units b + nano_carry a b <= int64_max.
