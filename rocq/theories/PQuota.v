(** The quota aggregator (src/quota_aggregator_impl.cc) on top of the pointer-level cache of PLru.v.  The functions are
    those of QuotaAgg.v, with each call of the cache replaced by the one that follows pointers; the deleter calls back
    into the cache while the element it is given is linked nowhere and not yet freed.  Simplifications as there. *)
From stdpp Require Import gmap.
From Verif Require Import Base Proto Signature OpAgg Lru Timeout Agg QuotaAgg QuotaAggSpec LinkedList PLru PAgg.
Local Open Scope Z_scope.
Set Implicit Arguments.

Record pquota_agg := PQuotaAgg { pqa_cache : option (plru nat); pqa_pool : pool quota_elem quota_request; pqa_flush_all : bool }.

Section quota.
Variable debug : bool.
Variable ord : hash_order.
Variable md5 : string -> string.
Variable clk : nat -> Z.
Variable cf : quota_config.
Notation pool := (pool quota_elem quota_request).

(** quota_aggregator_impl.cc:216-219 ShouldRefresh and 222-225 ShouldDrop *)
Definition PShouldRefresh (e : quota_elem) (p : plru nat) : bool := refresh_interval_in_cycle cf <=? p_now clk p - qe_last e.
Definition PShouldDrop (e : quota_elem) (p : plru nat) : bool := expiration_interval_in_cycle cf <=? p_now clk p - qe_last e.

(** quota_aggregator_impl.cc:261-275 OnCacheEntryDelete *)
Fixpoint p_quota_deleter (flush_all : bool) (fuel : nat) (k : string) (a : nat) (w : plru nat * pool) {struct fuel} : outcome (plru nat * pool) :=
  match fuel with
  | O => OutOfFuel
  | S n =>
      let! e := Agg.deref a w.2 in
      let keep := if flush_all then false else negb (PShouldDrop e w.1) in
      let p := if flush_all then w.1 else p_ticked w.1 in
      if keep then
        let! w := PInsert (p_quota_deleter flush_all n) clk n (qe_signature e) a 1 (p, w.2) in
        let! e := Agg.deref a w.2 in
        if negb (qe_in_flight e) && is_aggregated e then
          let e := set_qe_last (p_now clk w.1) (set_qe_in_flight true e) in
          Ok (p_ticked w.1, AddRemovedItem (ReturnAllocateQuotaRequest ord cf e) (assign a (cleared e) w.2))
        else Ok w
      else let! u := free a w.2 in Ok (p, u)
  end.

(** quota_aggregator_impl.cc:69-88 the constructor *)
Definition PNewQuotaAggregator : outcome pquota_agg :=
  let u := Pool ∅ 0%nat [] in
  if 0 <? qp_entries (qf_options cf) then
    let! t := cycles_of_ms (qp_refresh_ms (qf_options cf)) in
    let! p := PNewCache (qp_entries (qf_options cf)) in
    let! w := PSetTimeout (p_quota_deleter false 2) clk 2 t false (p, u) in
    Ok (PQuotaAgg (Some w.1) w.2 false)
  else Ok (PQuotaAgg None u false).

Definition p_quota_finish (flush_all : bool) (status : status_code) (response : option quota_response) (w : plru nat * pool) : pquota_agg * quota_result :=
  (PQuotaAgg (Some w.1) (with_items [] w.2) flush_all, QuotaResult status response (p_items w.2)).

Variable fuel : nat.

(** quota_aggregator_impl.cc:107-182 Quota *)
Definition PQuota (request : quota_request) (st : pquota_agg) : outcome (pquota_agg * quota_result) :=
  if negb (String.eqb (qr_service request) (qf_service cf)) then Ok (st, QuotaResult SInvalidArgument None [])
  else match qr_operation request, pqa_cache st with
  | None, _ => Ok (st, QuotaResult SInvalidArgument None [])
  | Some _, None => Ok (st, QuotaResult SNotFound None [])
  | Some _, Some p =>
    let del := p_quota_deleter (pqa_flush_all st) fuel in
    let signature := GenerateAllocateQuotaRequestSignature md5 request in
    let! wr := PLookup del clk fuel true signature (p, with_items [] (pqa_pool st)) in
    let p := wr.1.1 in
    let u := wr.1.2 in
    match wr.2 with
    | None =>
      let au := alloc (QuotaElem None request empty_quota_response signature (p_now clk p) true) u in
      let! w := PInsert del clk fuel signature au.1 1 (p_ticked p, au.2) in
      let u := AddRemovedItem request w.2 in
      let! e := Agg.deref au.1 u in
      Ok (p_quota_finish (pqa_flush_all st) SOk (Some (qe_response e)) (w.1, u))
    | Some a =>
      let! e := Agg.deref a u in
      let pue :=
        if negb (qe_in_flight e) then
          if PShouldRefresh e p then
            let p := p_ticked p in
            let e := set_qe_last (p_now clk p) (set_qe_in_flight true e) in
            let q := ReturnAllocateQuotaRequest ord cf e in
            let q := if negb (is_positive e) then in_normal_mode q else q in
            (p_ticked p, AddRemovedItem q u, cleared e)
          else (p_ticked p, u, e)
        else (p, u, e) in
      let '(p, u, e) := pue in
      let! e := if is_positive e then QAggregate debug request e else Ok e in
      let! w := PRelease del clk true signature a (p, assign a e u) in
      Ok (p_quota_finish (pqa_flush_all st) SOk (Some (qe_response e)) w)
    end
  end.

(** quota_aggregator_impl.cc:185-206 CacheResponse *)
Definition PQCacheResponse (request : quota_request) (response : quota_response) (st : pquota_agg) : outcome (pquota_agg * quota_result) :=
  match pqa_cache st with
  | None => Ok (st, QuotaResult SOk None [])
  | Some p =>
    let del := p_quota_deleter (pqa_flush_all st) fuel in
    let signature := GenerateAllocateQuotaRequestSignature md5 request in
    let! wr := PLookup del clk fuel true signature (p, with_items [] (pqa_pool st)) in
    match wr.2 with
    | Some a =>
      let! e := Agg.deref a wr.1.2 in
      let e := set_quota_response response (set_qe_in_flight false e) in
      let! w := PRelease del clk true signature a (wr.1.1, assign a e wr.1.2) in
      Ok (p_quota_finish (pqa_flush_all st) SOk None w)
    | None => Ok (p_quota_finish (pqa_flush_all st) SOk None wr.1)
    end
  end.

(** quota_aggregator_impl.cc:229-240 Flush *)
Definition PQFlush (st : pquota_agg) : outcome (pquota_agg * quota_result) :=
  match pqa_cache st with
  | None => Ok (st, QuotaResult SOk None [])
  | Some p =>
    let! w := PRemoveExpired (p_quota_deleter (pqa_flush_all st) fuel) clk fuel (p, with_items [] (pqa_pool st)) in
    Ok (p_quota_finish (pqa_flush_all st) SOk None w)
  end.

(** quota_aggregator_impl.cc:244-257 FlushAll *)
Definition PQFlushAll (st : pquota_agg) : outcome (pquota_agg * quota_result) :=
  match pqa_cache st with
  | None => Ok (PQuotaAgg None (pqa_pool st) true, QuotaResult SOk None [])
  | Some p =>
    let! w := PRemoveAll (p_quota_deleter true fuel) ord (p, with_items [] (pqa_pool st)) in
    Ok (p_quota_finish true SOk None w)
  end.

(** quota_aggregator_impl.cc:90-93 the destructor *)
Definition PDestroyQuota (st : pquota_agg) : outcome unit :=
  let! r := PQFlushAll st in
  match pqa_cache r.1 with None => Ok tt | Some p => PDestroyCache p end.

(** ** Specification: histories *)
Definition p_qstep (call : quota_call) (st : pquota_agg) : outcome (pquota_agg * quota_result) :=
  match call with
  | QQuota q => PQuota q st
  | QResponse q r => PQCacheResponse q r st
  | QFlushC => PQFlush st
  | QFlushAllC => PQFlushAll st
  end.
End quota.

Section spec.
Variable debug : bool.
Variable ord : hash_order.
Variable md5 : string -> string.
Variable clk : nat -> Z.
Variable cf : quota_config.
(** The call returns, and with what: some number of nested deleter calls is enough. *)
Definition p_returns (call : quota_call) (p : pquota_agg) (r : pquota_agg * quota_result) : Prop :=
  exists fuel, p_qstep debug ord md5 clk cf fuel call p = Ok r.
(** The calls made so far on a new aggregator, each with its result. *)
Inductive p_quota_history : pquota_agg -> list (quota_call * quota_result) -> Prop :=
| pqh_new p : PNewQuotaAggregator ord clk cf = Ok p -> p_quota_history p []
| pqh_step p rs call p' res : p_quota_history p rs -> p_returns call p (p', res) -> p_quota_history p' (rs ++ [(call, res)]).
End spec.
(** What a history tells its caller. *)
Definition qtold (h : list quota_event) : list (quota_call * quota_result) := (fun ev => (qv_call ev, qv_result ev)) <$> h.
