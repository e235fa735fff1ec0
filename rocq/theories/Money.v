(** Model of src/money_utils.cc. *)
From Coq Require Import String.
From Verif Require Import Base.

(** google.type.Money: currency_code, int64 units, int32 nanos. *)
Record money := Money { currency : string; units : Z; nanos : Z }.

(** A Money message as protobuf stores it: fields inside their machine types. *)
Definition money_wf (m : money) : Prop :=
  in_int64 (units m) = true /\ in_int32 (nanos m) = true.

(** src/money_utils.cc:26-43 ValidateMoney. *)
Definition ValidateMoney (m : money) : status_code :=
  if (Nat.eqb (String.length (currency m)) 0) || negb (Nat.eqb (String.length (currency m)) 3) then SInvalidArgument
  else if ((0 <? units m) && (nanos m <? 0)) || ((units m <? 0) && (0 <? nanos m)) then SInvalidArgument
  else let kMaxNanos := 999999999 in
       if (nanos m <? - kMaxNanos) || (kMaxNanos <? nanos m) then SInvalidArgument
       else SOk.

(** src/money_utils.cc:45-57 GetAmountSign. *)
Definition GetAmountSign (m : money) : Z :=
  if 0 <? units m then 1
  else if units m <? 0 then -1
  else if 0 <? nanos m then 1
  else if nanos m <? 0 then -1
  else 0.

Definition kBillion : Z := 1000000000.

(** src/money_utils.cc:69-80: the nanos sum and the carry it produces. *)
Definition add_nanos (na nb : Z) : outcome (Z * Z) :=
  let! s := add32 na nb in
  if kBillion <=? s then let! s' := add32 s (- kBillion) in Ok (1, s')
  else if s <=? - kBillion then let! s' := add32 s kBillion in Ok (-1, s')
  else Ok (0, s).

(** src/money_utils.cc:88-94: make the signs of units and nanos agree. *)
Definition fix_signs (m : arith_mode) (su sn : Z) : outcome (Z * Z) :=
  if (0 <? su) && (sn <? 0) then
    let! su' := add64 m su (-1) in let! sn' := add32 sn kBillion in Ok (su', sn')
  else if (su <? 0) && (0 <? sn) then
    let! su' := add64 m su 1 in let! sn' := add32 sn (- kBillion) in Ok (su', sn')
  else Ok (su, sn).

(** src/money_utils.cc:59-122 TryAddMoney.  The result is the returned status and the final contents
    of *sum (every path writes all three fields, so the previous contents of *sum do not matter). *)
Definition TryAddMoney (m : arith_mode) (a b : money) : outcome (status_code * money) :=
  if negb (String.eqb (currency a) (currency b)) then Ok (SInvalidArgument, Money "" 0 0)
  else
    let! (carry, sum_nanos) := add_nanos (nanos a) (nanos b) in
    let! sum_units_no_carry := add64 m (units a) (units b) in
    let! sum_units := add64 m sum_units_no_carry carry in
    let! (sum_units, sum_nanos) := fix_signs m sum_units sum_nanos in
    let sign_a := GetAmountSign a in
    let sign_b := GetAmountSign b in
    if (0 <? sign_a) && (0 <? sign_b) && (sum_units <=? 0) then
      Ok (SOutOfRange, Money (currency a) int64_max (kBillion - 1))
    else if (sign_a <? 0) && (sign_b <? 0) && ((0 <=? sum_units_no_carry) || (0 <=? sum_units)) then
      Ok (SOutOfRange, Money (currency a) int64_min (- kBillion + 1))
    else Ok (SOk, Money (currency a) sum_units sum_nanos).

(** src/money_utils.cc:124-130 SaturatedAddMoney.  [debug] is whether assert is compiled in. *)
Definition SaturatedAddMoney (debug : bool) (m : arith_mode) (a b : money) : outcome money :=
  let! (st, sum) := TryAddMoney m a b in
  if debug && negb (status_eqb st SOk || status_eqb st SOutOfRange) then Abort else Ok sum.
