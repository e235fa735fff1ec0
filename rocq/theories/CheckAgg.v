(** Model of src/check_aggregator_impl.{h,cc}: CheckAggregatorImpl.

    One call is modelled as one step: the calls hold cache_mutex_ while they use the cache, and the flush
    callback runs after it is released (cache_removed_items_handler.h); the interleaving of calls is modelled in
    Client.v.  The requests a call hands to the flush callback are part of its result, in order.
    Simplifications: log output is not modelled; the error texts of the statuses are dropped; clock values are
    unbounded integers. *)
From Verif Require Import Proto Signature OpAgg Lru Timeout Agg.
Set Implicit Arguments.

(** include/aggregation_options.h:63-95 CheckAggregationOptions *)
Record check_options := CheckOptions { co_entries : Z; co_flush_ms : Z; co_expiration_ms : Z }.

(** check_aggregator_impl.h:126-199 CheckAggregatorImpl::CacheElem *)
Record check_elem := CheckElem {
  ce_agg : option opagg;              (* operation_aggregator_, possibly null *)
  ce_response : check_response;
  ce_last : Z;                        (* last_check_time_ *)
  ce_scale : Z;                       (* quota_scale_ *)
  ce_flushing : bool }.
Definition set_ce_agg a e := CheckElem a (ce_response e) (ce_last e) (ce_scale e) (ce_flushing e).
Definition set_ce_response r e := CheckElem (ce_agg e) r (ce_last e) (ce_scale e) (ce_flushing e).
Definition set_ce_last t e := CheckElem (ce_agg e) (ce_response e) t (ce_scale e) (ce_flushing e).
Definition set_ce_scale z e := CheckElem (ce_agg e) (ce_response e) (ce_last e) z (ce_flushing e).
Definition set_ce_flushing b e := CheckElem (ce_agg e) (ce_response e) (ce_last e) (ce_scale e) b.

(** check_aggregator_impl.h:214-236 the constant fields of CheckAggregatorImpl *)
Record check_config := CheckConfig {
  cc_service : string; cc_config_id : string; cc_options : check_options; cc_kinds : option (gmap string metric_kind) }.
(** The cache (null when disabled) and the objects it owns. *)
Record check_agg := CheckAgg { ca_cache : option (lru nat); ca_pool : pool check_elem check_request }.

Section check.
Variable ord : hash_order.
Variable md5 : string -> string.
Variable clk : nat -> Z.
Variable cf : check_config.
Notation world := (world (V:=nat) (U:=pool check_elem check_request)).

(** check_aggregator_impl.cc:34-42 CacheElem::Aggregate *)
Definition Aggregate (request : check_request) (e : check_elem) : outcome check_elem :=
  let! a := match ce_agg e with
            | None => NewOperationAggregator ord md5 (cc_kinds cf) (op_get (cr_operation request))
            | Some a => MergeOperation ord md5 (cc_kinds cf) (op_get (cr_operation request)) a
            end in
  Ok (set_ce_agg (Some a) e).

(** check_aggregator_impl.cc:44-55 CacheElem::ReturnCheckRequestAndClear, the returned request *)
Definition ReturnCheckRequest (e : check_elem) : check_request :=
  CheckRequest (cc_service cf) (ToOperationProto ord <$> ce_agg e) (cc_config_id cf) "".

(** check_aggregator_impl.cc:226-236 OnCacheEntryDelete: what it adds to the removed items *)
Definition removed_check (e : check_elem) (items : list check_request) : list check_request :=
  match ce_agg e with
  | None => items
  | Some _ => add_item never_merge (ReturnCheckRequest e) items
  end.
(** check_aggregator_impl.cc:226-236 OnCacheEntryDelete, as the deleter of the cache *)
Definition OnCacheEntryDelete (k : string) (a : nat) (w : world) : outcome world :=
  let! u := delete_with removed_check w.2 (k, a) in Ok (w.1, u).

(** check_aggregator_impl.cc:66-67 flush_interval_in_cycle_ (int64 arithmetic: the product of an int and 10^6 fits) *)
Definition flush_interval_in_cycle : Z := Z.quot (co_flush_ms (cc_options cf) * Frequency) 1000.

(** check_aggregator_impl.cc:57-75 the constructor *)
Definition NewCheckAggregator : outcome check_agg :=
  let u := Pool ∅ 0%nat [] in
  if 0 <? co_entries (cc_options cf) then
    let! t := cycles_of_ms (co_expiration_ms (cc_options cf)) in
    let! w := SetTimeout OnCacheEntryDelete clk 2 t true (NewCache (co_entries (cc_options cf)), u) in
    Ok (CheckAgg (Some w.1) w.2)
  else Ok (CheckAgg None u).

(** check_aggregator_impl.cc:166-175 ShouldFlush, at the next clock reading *)
Definition ShouldFlush (e : check_elem) (c : lru nat) : bool := flush_interval_in_cycle <=? read_now clk c - ce_last e.

(** What a call returns: the status, the response if it wrote one, and the requests given to the flush callback. *)
Record check_result := CheckResult { cres_status : status_code; cres_response : option check_response; cres_flushed : list check_request }.
(** The end of a call: the Swapper and the lock go, then the stack buffer flushes its items
    (cache_removed_items_handler.h:87-91). *)
Definition finish (status : status_code) (response : option check_response) (w : world) : check_agg * check_result :=
  (CheckAgg (Some w.1) (with_items [] w.2), CheckResult status response (p_items w.2)).

(** check_aggregator_impl.cc:90-164 Check *)
Definition Check (request : check_request) (st : check_agg) : outcome (check_agg * check_result) :=
  if negb (String.eqb (cr_service request) (cc_service cf)) then Ok (st, CheckResult SInvalidArgument None [])
  else match cr_operation request, ca_cache st with
  | None, _ => Ok (st, CheckResult SInvalidArgument None [])
  | Some _, None => Ok (st, CheckResult SNotFound None [])
  | Some operation, Some c =>
    if negb (op_importance operation =? LOW) then Ok (st, CheckResult SNotFound None [])
    else
      let signature := GenerateCheckRequestSignature ord md5 request in
      let! wr := Lru.Lookup OnCacheEntryDelete clk (2 + l_next_id c) signature (c, with_items [] (ca_pool st)) in
      let c := wr.1.1 in
      let u := wr.1.2 in
      match wr.2 with
      | None => Ok (finish SNotFound None (c, u))
      | Some a =>
        let! e := deref a u in
        (* the ScopedLookup releases the entry when the function returns *)
        let return_ status response c e :=
          let! w := Release OnCacheEntryDelete clk signature a (c, assign a e u) in Ok (finish status response w) in
        if 0 <? Z.of_nat (length (cs_errors (ce_response e))) then
          if ShouldFlush e c then
            let c := after_now c in
            return_ SNotFound None (after_now c) (set_ce_last (read_now clk c) e)
          else return_ SOk (Some (ce_response e)) (after_now c) e
        else
          let! e := Aggregate request e in
          if ShouldFlush e c then
            let c := after_now c in
            return_ SNotFound None (after_now c) (set_ce_last (read_now clk c) (set_ce_flushing true e))
          else return_ SOk (Some (ce_response e)) (after_now c) e
      end
  end.

(** check_aggregator_impl.cc:177-203 CacheResponse *)
Definition CacheResponse (request : check_request) (response : check_response) (st : check_agg) : outcome (check_agg * check_result) :=
  match ca_cache st with
  | None => Ok (st, CheckResult SOk None [])
  | Some c =>
    let signature := GenerateCheckRequestSignature ord md5 request in
    let! wr := Lru.Lookup OnCacheEntryDelete clk (2 + l_next_id c) signature (c, with_items [] (ca_pool st)) in
    let now := read_now clk wr.1.1 in
    let c := after_now wr.1.1 in
    let u := wr.1.2 in
    match wr.2 with
    | Some a =>
      let! e := deref a u in
      let e := set_ce_flushing false (set_ce_scale 0 (set_ce_response response (set_ce_last now e))) in
      let! w := Release OnCacheEntryDelete clk signature a (c, assign a e u) in
      Ok (finish SOk None w)
    | None =>
      let au := alloc (CheckElem None response now 0 false) u in
      let! w := Lru.Insert OnCacheEntryDelete clk (2 + l_next_id c) signature au.1 1 (c, au.2) in
      Ok (finish SOk None w)
    end
  end.

(** check_aggregator_impl.cc:207-210 GetNextFlushInterval *)
Definition GetNextFlushInterval (st : check_agg) : Z :=
  match ca_cache st with None => -1 | Some _ => co_expiration_ms (cc_options cf) end.

(** check_aggregator_impl.cc:214-224 Flush *)
Definition Flush (st : check_agg) : outcome (check_agg * check_result) :=
  match ca_cache st with
  | None => Ok (st, CheckResult SOk None [])
  | Some c =>
    let! w := RemoveExpiredEntries OnCacheEntryDelete clk (2 + l_next_id c) (c, with_items [] (ca_pool st)) in
    Ok (finish SOk None w)
  end.

(** check_aggregator_impl.cc:240-250 FlushAll *)
Definition FlushAll (st : check_agg) : outcome (check_agg * check_result) :=
  match ca_cache st with
  | None => Ok (st, CheckResult SOk None [])
  | Some c =>
    let! w := RemoveAll OnCacheEntryDelete ord (c, with_items [] (ca_pool st)) in
    Ok (finish SOk None w)
  end.

(** check_aggregator_impl.cc:77-82 the destructor: the callback is disconnected first, so what FlushAll
    removes is dropped; then the cache is destroyed. *)
Definition DestroyCheckAggregator (st : check_agg) : outcome unit :=
  let! r := FlushAll st in
  match ca_cache r.1 with None => Ok tt | Some c => DestroyCache c end.
End check.
