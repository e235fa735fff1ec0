(** Shared vocabulary of the model: outcomes of C++ code and machine integers. *)
From Coq Require Export ZArith Bool List Lia.
From Coq Require Ascii String.
Export String.StringSyntax Ascii.AsciiSyntax.
Export ListNotations.
Open Scope Z_scope.

(** Why a C++ execution is undefined.  Every reason used by the model is listed here. *)
Inductive ub_reason :=
| SignedOverflow      (* signed integer overflow *)
| IndexOutOfRange     (* container / repeated field index out of range *)
| BadFloatToInt       (* floating value not representable in the integer type it is cast to *)
| UseAfterFree        (* access through a pointer to a deleted object *)
| ListCorruption      (* linking a node that is already linked / unlinking one that is not *)
| UninitRead.         (* use of an iterator or pointer that designates nothing *)

(** The outcome of running a piece of code.  [Abort] is a failed assert in a debug build, and
    [OutOfFuel] an exhausted loop or recursion budget (it stands for non-termination and is never
    confused with a result). *)
Inductive outcome (A : Type) : Type :=
| Ok (a : A)
| UB (r : ub_reason)
| Abort
| OutOfFuel.
Arguments Ok {A} a.
Arguments UB {A} r.
Arguments Abort {A}.
Arguments OutOfFuel {A}.

Definition obind {A B} (x : outcome A) (f : A -> outcome B) : outcome B :=
  match x with Ok a => f a | UB r => UB r | Abort => Abort | OutOfFuel => OutOfFuel end.
Notation "'let!' x := e 'in' k" := (obind e (fun x => k))
  (at level 200, x pattern, e at level 100, k at level 200, right associativity).

(** A loop whose body may be undefined. *)
Fixpoint ofold {A B} (f : A -> B -> outcome A) (a : A) (l : list B) : outcome A :=
  match l with
  | [] => Ok a
  | x :: l => let! a' := f a x in ofold f a' l
  end.

(** The sum of a list. *)
Definition sum_Z (l : list Z) : Z := fold_right Z.add 0 l.

Definition is_ok {A} (x : outcome A) : bool := match x with Ok _ => true | _ => false end.

(** ** Machine integers *)
Definition int32_min : Z := -2147483648.
Definition int32_max : Z := 2147483647.
Definition int64_min : Z := -9223372036854775808.
Definition int64_max : Z := 9223372036854775807.
Definition two64 : Z := 18446744073709551616.

Definition in_int32 (x : Z) : bool := (int32_min <=? x) && (x <=? int32_max).
Definition in_int64 (x : Z) : bool := (int64_min <=? x) && (x <=? int64_max).

(** Two's complement wrap-around to int64. *)
Definition wrap64 (x : Z) : Z := (x - int64_min) mod two64 + int64_min.

(** Signed addition is undefined on overflow ([Strict]); most compilers produce wrap-around
    ([Wrap]) at low optimisation levels. *)
Inductive arith_mode := Strict | Wrap.

Definition add64 (m : arith_mode) (x y : Z) : outcome Z :=
  if in_int64 (x + y) then Ok (x + y)
  else match m with Strict => UB SignedOverflow | Wrap => Ok (wrap64 (x + y)) end.

(** int32 arithmetic is only modelled strictly. *)
Definition add32 (x y : Z) : outcome Z :=
  if in_int32 (x + y) then Ok (x + y) else UB SignedOverflow.

(** ** Status codes (google/protobuf/stubs/status.h); messages are not modelled. *)
Inductive status_code :=
| SOk | SInvalidArgument | SNotFound | SOutOfRange | SInternal | SOther (n : Z).

Definition status_eqb (a b : status_code) : bool :=
  match a, b with
  | SOk, SOk | SInvalidArgument, SInvalidArgument | SNotFound, SNotFound
  | SOutOfRange, SOutOfRange | SInternal, SInternal => true
  | SOther x, SOther y => x =? y
  | _, _ => false
  end.
