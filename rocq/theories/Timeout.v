(** Model of the timeout conversion: utils/simple_lru_cache_inl.h:593-629 SetTimeout up to the assignment of
    max_idle_, and the callers that turn milliseconds into seconds. *)
From Verif Require Import Proto Distribution.

(** static_cast<int64_t>(double): undefined unless the truncated value is an int64. *)
Definition f_to_int64 (x : double) : outcome Z :=
  match f_trunc x with
  | Some t => if in_int64 t then Ok t else UB BadFloatToInt
  | None => UB BadFloatToInt
  end.
(** std::isinf *)
Definition f_isinf (x : double) : bool := match x with S754_infinity _ => true | _ => false end.

(** simple_lru_cache_inl.h:65, 83 kSecToUsec, SimpleCycleTimer::Frequency *)
Definition Frequency : Z := 1000000.

(** simple_lru_cache_inl.h:593-629 SetTimeout: the value max_idle_ gets; [None] for no timeout. *)
Definition cycles_of_seconds (seconds : double) : outcome (option Z) :=
  if flt seconds f_zero || f_isinf seconds then Ok None
  else
    let timeout_cycles := fmul seconds (f_of_int Frequency) in
    if fle (f_of_int int64_max) timeout_cycles then Ok (Some int64_max)
    else let! n := f_to_int64 timeout_cycles in Ok (Some n).

(** The callers divide an int number of milliseconds by 1000.0: src/check_aggregator_impl.cc:73,
    src/report_aggregator_impl.cc:64, src/quota_aggregator_impl.cc:80. *)
Definition seconds_of_ms (ms : Z) : double := fdiv (f_of_int ms) (f_of_int 1000).
Definition cycles_of_ms (ms : Z) : outcome (option Z) := cycles_of_seconds (seconds_of_ms ms).
