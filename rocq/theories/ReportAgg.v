(** Model of src/report_aggregator_impl.{h,cc}: ReportAggregatorImpl.

    One call is modelled as one step: the calls hold cache_mutex_ while they use the cache, and the flush
    callback runs after it is released (cache_removed_items_handler.h); the interleaving of calls is modelled in
    Client.v.  The requests a call hands to the flush callback are part of its result, in order.
    Simplifications: the error texts of the statuses are dropped; clock values are unbounded integers. *)
From Verif Require Import Proto Signature OpAgg Lru Timeout Agg.
Set Implicit Arguments.

(** include/aggregation_options.h:98-119 ReportAggregationOptions *)
Record report_options := ReportOptions { ro_entries : Z; ro_flush_ms : Z }.
(** report_aggregator_impl.h:95-105 the constant fields of ReportAggregatorImpl *)
Record report_config := ReportConfig {
  rc_service : string; rc_config_id : string; rc_options : report_options; rc_kinds : option (gmap string metric_kind) }.
(** The cache (null when disabled) and the OperationAggregator objects it owns. *)
Record report_agg := ReportAgg { ra_cache : option (lru nat); ra_pool : pool opagg report_request }.

(** report_aggregator_impl.cc:37 *)
Definition kMaxOperationsToSend : nat := 10.
(** report_aggregator_impl.cc:40-47 *)
Fixpoint HasHighImportantOperation (operations : list operation) : bool :=
  match operations with
  | [] => false
  | operation :: operations => if negb (op_importance operation =? LOW) then true else HasHighImportantOperation operations
  end.

Section report.
Variable ord : hash_order.
Variable md5 : string -> string.
Variable clk : nat -> Z.
Variable cf : report_config.
Notation world := (world (V:=nat) (U:=pool opagg report_request)).

(** ReportRequest::MergeFrom: a non-empty string replaces the old one, repeated fields are appended. *)
Definition MergeFrom (new old : report_request) : report_request :=
  ReportRequest (if String.eqb (rr_service new) "" then rr_service old else rr_service new)
                (rr_operations old ++ rr_operations new)
                (if String.eqb (rr_config new) "" then rr_config old else rr_config new).
(** report_aggregator_impl.cc:138-147 MergeItem *)
Definition MergeItem (new old : report_request) : option report_request :=
  if negb (String.eqb (rr_service old) (rr_service new)) ||
     Nat.ltb kMaxOperationsToSend (length (rr_operations old) + length (rr_operations new)) then None
  else Some (MergeFrom new old).

(** report_aggregator_impl.cc:124-136 OnCacheEntryDelete: what it adds to the removed items *)
Definition removed_report (iop : opagg) (items : list report_request) : list report_request :=
  add_item MergeItem (ReportRequest (rc_service cf) [ToOperationProto ord iop] (rc_config_id cf)) items.
(** report_aggregator_impl.cc:124-136 OnCacheEntryDelete, as the deleter of the cache *)
Definition OnCacheEntryDelete (k : string) (a : nat) (w : world) : outcome world :=
  let! u := delete_with removed_report w.2 (k, a) in Ok (w.1, u).

(** report_aggregator_impl.cc:51-66 the constructor *)
Definition NewReportAggregator : outcome report_agg :=
  let u := Pool ∅ 0%nat [] in
  if 0 <? ro_entries (rc_options cf) then
    let! t := cycles_of_ms (ro_flush_ms (rc_options cf)) in
    let! w := SetTimeout OnCacheEntryDelete clk 2 t false (NewCache (ro_entries (rc_options cf)), u) in
    Ok (ReportAgg (Some w.1) w.2)
  else Ok (ReportAgg None u).

(** What a call returns: the status and the requests given to the flush callback. *)
Record report_result := ReportResult { rres_status : status_code; rres_flushed : list report_request }.
(** The end of a call: the stack buffer flushes its items (cache_removed_items_handler.h:87-91). *)
Definition finish (status : status_code) (w : world) : report_agg * report_result :=
  (ReportAgg (Some w.1) (with_items [] w.2), ReportResult status (p_items w.2)).

(** report_aggregator_impl.cc:100-120 the body of the loop in Report *)
Definition report_one (w : world) (operation : operation) : outcome world :=
  let signature := GenerateReportOperationSignature ord md5 operation in
  let! wr := Lru.Lookup OnCacheEntryDelete clk (2 + l_next_id w.1) signature w in
  let c := wr.1.1 in
  let u := wr.1.2 in
  match wr.2 with
  | Some a =>
    let! iop := deref a u in
    let! iop := MergeOperation ord md5 (rc_kinds cf) operation iop in
    let too_big := TooBig iop in
    (* the end of the lookup's scope *)
    let! w := Release OnCacheEntryDelete clk signature a (c, assign a iop u) in
    if too_big then Remove OnCacheEntryDelete signature w else Ok w
  | None =>
    let! iop := NewOperationAggregator ord md5 (rc_kinds cf) operation in
    let au := alloc iop u in
    Lru.Insert OnCacheEntryDelete clk (2 + l_next_id c) signature au.1 1 (c, au.2)
  end.

(** report_aggregator_impl.cc:82-122 Report *)
Definition Report (request : report_request) (st : report_agg) : outcome (report_agg * report_result) :=
  if negb (String.eqb (rr_service request) (rc_service cf)) then Ok (st, ReportResult SInvalidArgument [])
  else match HasHighImportantOperation (rr_operations request), ra_cache st with
  | true, _ => Ok (st, ReportResult SNotFound [])
  | false, None => Ok (st, ReportResult SNotFound [])
  | false, Some c =>
    let! w := ofold report_one (c, with_items [] (ra_pool st)) (rr_operations request) in
    Ok (finish SOk w)
  end.

(** report_aggregator_impl.cc:151-154 GetNextFlushInterval *)
Definition GetNextFlushInterval (st : report_agg) : Z :=
  match ra_cache st with None => -1 | Some _ => ro_flush_ms (rc_options cf) end.

(** report_aggregator_impl.cc:158-167 Flush *)
Definition Flush (st : report_agg) : outcome (report_agg * report_result) :=
  match ra_cache st with
  | None => Ok (st, ReportResult SOk [])
  | Some c =>
    let! w := RemoveExpiredEntries OnCacheEntryDelete clk (2 + l_next_id c) (c, with_items [] (ra_pool st)) in
    Ok (finish SOk w)
  end.

(** report_aggregator_impl.cc:171-180 FlushAll *)
Definition FlushAll (st : report_agg) : outcome (report_agg * report_result) :=
  match ra_cache st with
  | None => Ok (st, ReportResult SOk [])
  | Some c =>
    let! w := RemoveAll OnCacheEntryDelete ord (c, with_items [] (ra_pool st)) in
    Ok (finish SOk w)
  end.

(** report_aggregator_impl.cc:68-74 the destructor: the callback is disconnected first, so what FlushAll
    removes is dropped; then the cache is destroyed. *)
Definition DestroyReportAggregator (st : report_agg) : outcome unit :=
  let! r := FlushAll st in
  match ra_cache r.1 with None => Ok tt | Some c => DestroyCache c end.
End report.
