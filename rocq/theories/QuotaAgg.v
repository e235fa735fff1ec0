(** Model of src/quota_aggregator_impl.{h,cc}: QuotaAggregatorImpl.

    As in CheckAgg.v one call is one step, and the requests a call hands to the flush callback are part of its
    result, in order.  The deleter of this cache calls back into the cache, so the calls can nest without bound:
    every function that uses the cache takes the number of nested deleter calls (and of loop iterations) it may
    spend, and gives [OutOfFuel] when that is not enough.
    Simplifications: log output is not modelled; the error texts of the statuses are dropped; clock values are
    unbounded integers. *)
From Verif Require Import Proto Signature OpAgg Lru Timeout Agg.
Set Implicit Arguments.

(** include/aggregation_options.h:33-60 QuotaAggregationOptions *)
Record quota_options := QuotaOptions { qp_entries : Z; qp_refresh_ms : Z; qp_expiration_ms : Z }.

(** quota_aggregator_impl.h:74-157 QuotaAggregatorImpl::CacheElem *)
Record quota_elem := QuotaElem {
  qe_agg : option qopagg;             (* operation_aggregator_, possibly null *)
  qe_request : quota_request;
  qe_response : quota_response;
  qe_signature : string;
  qe_last : Z;                        (* last_refresh_time_ *)
  qe_in_flight : bool }.
Definition set_qe_agg a e := QuotaElem a (qe_request e) (qe_response e) (qe_signature e) (qe_last e) (qe_in_flight e).
Definition set_qe_response r e := QuotaElem (qe_agg e) (qe_request e) r (qe_signature e) (qe_last e) (qe_in_flight e).
Definition set_qe_last t e := QuotaElem (qe_agg e) (qe_request e) (qe_response e) (qe_signature e) t (qe_in_flight e).
Definition set_qe_in_flight b e := QuotaElem (qe_agg e) (qe_request e) (qe_response e) (qe_signature e) (qe_last e) b.

(** quota_aggregator_impl.h:116-118 is_aggregated *)
Definition is_aggregated (e : quota_elem) : bool := match qe_agg e with Some _ => true | None => false end.
(** quota_aggregator_impl.h:128-130 is_positive_response *)
Definition is_positive (e : quota_elem) : bool := Nat.eqb (length (qs_errors (qe_response e))) 0.
(** quota_aggregator_impl.h:99-107 set_quota_response: errors drop what was aggregated *)
Definition set_quota_response (r : quota_response) (e : quota_elem) : quota_elem :=
  let e := set_qe_response r e in
  if 0 <? Z.of_nat (length (qs_errors r)) then set_qe_agg None e else e.

(** quota_aggregator_impl.h:186-208 the constant fields of QuotaAggregatorImpl *)
Record quota_config := QuotaConfig { qf_service : string; qf_config_id : string; qf_options : quota_options }.
(** The cache (null when disabled), the objects it owns and in_flush_all_. *)
Record quota_agg := QuotaAgg { qg_cache : option (lru nat); qg_pool : pool quota_elem quota_request; qg_flush_all : bool }.

Section quota.
(** GOOGLE_DCHECK is compiled in. *)
Variable debug : bool.
Variable ord : hash_order.
Variable md5 : string -> string.
Variable clk : nat -> Z.
Variable cf : quota_config.
Notation world := (world (V:=nat) (U:=pool quota_elem quota_request)).

(** quota_aggregator_impl.cc:38-46 CacheElem::Aggregate *)
Definition QAggregate (request : quota_request) (e : quota_elem) : outcome quota_elem :=
  let! a := match qe_agg e with
            | None => NewQuotaOperationAggregator debug (qop_get (qr_operation request))
            | Some a => QuotaMergeOperation debug (qop_get (qr_operation request)) a
            end in
  Ok (set_qe_agg (Some a) e).

(** quota_aggregator_impl.cc:48-67 CacheElem::ReturnAllocateQuotaRequestAndClear: the returned request ... *)
Definition ReturnAllocateQuotaRequest (e : quota_elem) : quota_request :=
  match qe_agg e with
  | Some a => QuotaRequest (qf_service cf) (Some (QuotaToOperationProto ord a)) (qf_config_id cf)
  | None => qe_request e
  end.
(** ... and the element afterwards (line 58). *)
Definition cleared (e : quota_elem) : quota_elem := set_qe_agg None e.

(** quota_aggregator_impl.cc:83-87 the intervals in cycles (int64 arithmetic: the product of an int and 10^6 fits) *)
Definition refresh_interval_in_cycle : Z := Z.quot (qp_refresh_ms (qf_options cf) * Frequency) 1000.
Definition expiration_interval_in_cycle : Z := Z.quot (qp_expiration_ms (qf_options cf) * Frequency) 1000.

(** quota_aggregator_impl.cc:216-219 ShouldRefresh and 222-225 ShouldDrop, at the next clock reading *)
Definition ShouldRefresh (e : quota_elem) (c : lru nat) : bool := refresh_interval_in_cycle <=? read_now clk c - qe_last e.
Definition ShouldDrop (e : quota_elem) (c : lru nat) : bool := expiration_interval_in_cycle <=? read_now clk c - qe_last e.

(** cache_removed_items_handler.h:66-70 AddRemovedItem; quota requests are never merged. *)
Definition AddRemovedItem (q : quota_request) (u : pool quota_elem quota_request) : pool quota_elem quota_request :=
  with_items (add_item never_merge q (p_items u)) u.

(** quota_aggregator_impl.cc:261-275 OnCacheEntryDelete, the deleter of the cache; [flush_all] is in_flush_all_ and
    [fuel] bounds the nesting.  The element is used again after the nested Insert. *)
Fixpoint OnCacheEntryDelete (flush_all : bool) (fuel : nat) (k : string) (a : nat) (w : world) {struct fuel} : outcome world :=
  match fuel with
  | O => OutOfFuel
  | S n =>
      let! e := deref a w.2 in
      let keep := if flush_all then false else negb (ShouldDrop e w.1) in
      let c := if flush_all then w.1 else after_now w.1 in
      if keep then
        let! w := Lru.Insert (OnCacheEntryDelete flush_all n) clk n (qe_signature e) a 1 (c, w.2) in
        let! e := deref a w.2 in
        if negb (qe_in_flight e) && is_aggregated e then
          let e := set_qe_last (read_now clk w.1) (set_qe_in_flight true e) in
          Ok (after_now w.1, AddRemovedItem (ReturnAllocateQuotaRequest e) (assign a (cleared e) w.2))
        else Ok w
      else let! u := free a w.2 in Ok (c, u)
  end.

(** quota_aggregator_impl.cc:69-88 the constructor.  SetAgeBasedEviction is SetTimeout(_, false). *)
Definition NewQuotaAggregator : outcome quota_agg :=
  let u := Pool ∅ 0%nat [] in
  if 0 <? qp_entries (qf_options cf) then
    let! t := cycles_of_ms (qp_refresh_ms (qf_options cf)) in
    let! w := SetTimeout (OnCacheEntryDelete false 2) clk 2 t false (NewCache (qp_entries (qf_options cf)), u) in
    Ok (QuotaAgg (Some w.1) w.2 false)
  else Ok (QuotaAgg None u false).

(** What a call returns: the status, the response if it wrote one, and the requests given to the flush callback. *)
Record quota_result := QuotaResult { qres_status : status_code; qres_response : option quota_response; qres_flushed : list quota_request }.
(** The end of a call: the Swapper and the lock go, then the stack buffer flushes its items
    (cache_removed_items_handler.h:87-91). *)
Definition qfinish (flush_all : bool) (status : status_code) (response : option quota_response) (w : world) : quota_agg * quota_result :=
  (QuotaAgg (Some w.1) (with_items [] w.2) flush_all, QuotaResult status response (p_items w.2)).

(** An AllocateQuotaResponse with no field set. *)
Definition empty_quota_response : quota_response := QuotaResponse [] "".
(** quota_aggregator_impl.cc:160-167 set_quota_mode(NORMAL) on the refresh request *)
Definition in_normal_mode (q : quota_request) : quota_request :=
  let o := qop_get (qr_operation q) in
  QuotaRequest (qr_service q)
    (Some (QuotaOperation (qo_id o) (qo_method o) (qo_consumer o) (qo_labels o) (qo_metrics o) QUOTA_NORMAL)) (qr_config q).

Variable fuel : nat.

(** quota_aggregator_impl.cc:107-182 Quota *)
Definition Quota (request : quota_request) (st : quota_agg) : outcome (quota_agg * quota_result) :=
  if negb (String.eqb (qr_service request) (qf_service cf)) then Ok (st, QuotaResult SInvalidArgument None [])
  else match qr_operation request, qg_cache st with
  | None, _ => Ok (st, QuotaResult SInvalidArgument None [])
  | Some _, None => Ok (st, QuotaResult SNotFound None [])
  | Some _, Some c =>
    let del := OnCacheEntryDelete (qg_flush_all st) fuel in
    let signature := GenerateAllocateQuotaRequestSignature md5 request in
    let! wr := Lru.Lookup del clk fuel signature (c, with_items [] (qg_pool st)) in
    let c := wr.1.1 in
    let u := wr.1.2 in
    match wr.2 with
    | None =>
      let au := alloc (QuotaElem None request empty_quota_response signature (read_now clk c) true) u in
      let! w := Lru.Insert del clk fuel signature au.1 1 (after_now c, au.2) in
      let u := AddRemovedItem request w.2 in
      let! e := deref au.1 u in
      Ok (qfinish (qg_flush_all st) SOk (Some (qe_response e)) (w.1, u))
    | Some a =>
      let! e := deref a u in
      let cue :=
        if negb (qe_in_flight e) then
          if ShouldRefresh e c then
            let c := after_now c in
            let e := set_qe_last (read_now clk c) (set_qe_in_flight true e) in
            let q := ReturnAllocateQuotaRequest e in
            let q := if negb (is_positive e) then in_normal_mode q else q in
            (after_now c, AddRemovedItem q u, cleared e)
          else (after_now c, u, e)
        else (c, u, e) in
      let '(c, u, e) := cue in
      let! e := if is_positive e then QAggregate request e else Ok e in
      (* the ScopedLookup releases the entry when the function returns *)
      let! w := Release del clk signature a (c, assign a e u) in
      Ok (qfinish (qg_flush_all st) SOk (Some (qe_response e)) w)
    end
  end.

(** quota_aggregator_impl.cc:185-206 CacheResponse *)
Definition QCacheResponse (request : quota_request) (response : quota_response) (st : quota_agg) : outcome (quota_agg * quota_result) :=
  match qg_cache st with
  | None => Ok (st, QuotaResult SOk None [])
  | Some c =>
    let del := OnCacheEntryDelete (qg_flush_all st) fuel in
    let signature := GenerateAllocateQuotaRequestSignature md5 request in
    let! wr := Lru.Lookup del clk fuel signature (c, with_items [] (qg_pool st)) in
    match wr.2 with
    | Some a =>
      let! e := deref a wr.1.2 in
      let e := set_quota_response response (set_qe_in_flight false e) in
      let! w := Release del clk signature a (wr.1.1, assign a e wr.1.2) in
      Ok (qfinish (qg_flush_all st) SOk None w)
    | None => Ok (qfinish (qg_flush_all st) SOk None wr.1)
    end
  end.

(** quota_aggregator_impl.cc:210-213 GetNextFlushInterval *)
Definition QGetNextFlushInterval (st : quota_agg) : Z :=
  match qg_cache st with None => -1 | Some _ => qp_refresh_ms (qf_options cf) end.

(** quota_aggregator_impl.cc:229-240 Flush *)
Definition QFlush (st : quota_agg) : outcome (quota_agg * quota_result) :=
  match qg_cache st with
  | None => Ok (st, QuotaResult SOk None [])
  | Some c =>
    let! w := RemoveExpiredEntries (OnCacheEntryDelete (qg_flush_all st) fuel) clk fuel (c, with_items [] (qg_pool st)) in
    Ok (qfinish (qg_flush_all st) SOk None w)
  end.

(** quota_aggregator_impl.cc:244-257 FlushAll: in_flush_all_ stays set. *)
Definition QFlushAll (st : quota_agg) : outcome (quota_agg * quota_result) :=
  match qg_cache st with
  | None => Ok (QuotaAgg None (qg_pool st) true, QuotaResult SOk None [])
  | Some c =>
    let! w := RemoveAll (OnCacheEntryDelete true fuel) ord (c, with_items [] (qg_pool st)) in
    Ok (qfinish true SOk None w)
  end.

(** quota_aggregator_impl.cc:90-93 the destructor: the callback is disconnected first; then the cache is destroyed. *)
Definition DestroyQuotaAggregator (st : quota_agg) : outcome unit :=
  let! r := QFlushAll st in
  match qg_cache r.1 with None => Ok tt | Some c => DestroyCache c end.
End quota.
