(** The check and report aggregators (src/check_aggregator_impl.cc, src/report_aggregator_impl.cc) on top of the
    pointer-level cache of PLru.v.  The functions are those of CheckAgg.v and ReportAgg.v, with each call of the cache
    replaced by the one that follows pointers; simplifications as there. *)
From stdpp Require Import gmap.
From Verif Require Import Base Proto Signature OpAgg Lru Timeout Agg CheckAgg CheckAggSpec ReportAgg ReportAggSpec LinkedList PLru.
Local Open Scope Z_scope.
Set Implicit Arguments.

(** simple_lru_cache_inl.h:292-295 the destructor's assertions. *)
Definition PDestroyCache (p : plru nat) : outcome unit :=
  let! _ := assert_ (bool_decide (p_table p = ∅)) in
  assert_ (bool_decide (p_defer p = ∅)).

Section check.
Variable ord : hash_order.
Variable md5 : string -> string.
Variable clk : nat -> Z.
Variable cf : check_config.
Notation pool := (pool check_elem check_request).
Record pcheck_agg := PCheckAgg { pca_cache : option (plru nat); pca_pool : pool }.

(** check_aggregator_impl.cc:226-236 OnCacheEntryDelete *)
Definition p_check_deleter : string -> nat -> pworld -> outcome pworld := p_passive (delete_with (removed_check ord cf)).

(** check_aggregator_impl.cc:57-75 the constructor *)
Definition PNewCheckAggregator : outcome pcheck_agg :=
  let u := Pool ∅ 0%nat [] in
  if 0 <? co_entries (cc_options cf) then
    let! t := cycles_of_ms (co_expiration_ms (cc_options cf)) in
    let! p := PNewCache (co_entries (cc_options cf)) in
    let! w := PSetTimeout p_check_deleter clk 2 t true (p, u) in
    Ok (PCheckAgg (Some w.1) w.2)
  else Ok (PCheckAgg None u).

(** check_aggregator_impl.cc:166-175 ShouldFlush *)
Definition PShouldFlush (e : check_elem) (p : plru nat) : bool := flush_interval_in_cycle cf <=? p_now clk p - ce_last e.

Definition p_check_finish (status : status_code) (response : option check_response) (w : plru nat * pool) : pcheck_agg * check_result :=
  (PCheckAgg (Some w.1) (with_items [] w.2), CheckResult status response (p_items w.2)).

(** check_aggregator_impl.cc:90-164 Check *)
Definition PCheck (request : check_request) (st : pcheck_agg) : outcome (pcheck_agg * check_result) :=
  if negb (String.eqb (cr_service request) (cc_service cf)) then Ok (st, CheckResult SInvalidArgument None [])
  else match cr_operation request, pca_cache st with
  | None, _ => Ok (st, CheckResult SInvalidArgument None [])
  | Some _, None => Ok (st, CheckResult SNotFound None [])
  | Some operation, Some p =>
    if negb (op_importance operation =? LOW) then Ok (st, CheckResult SNotFound None [])
    else
      let signature := GenerateCheckRequestSignature ord md5 request in
      let! wr := PLookup p_check_deleter clk (2 + PLru.p_next p) true signature (p, with_items [] (pca_pool st)) in
      let p := wr.1.1 in
      let u := wr.1.2 in
      match wr.2 with
      | None => Ok (p_check_finish SNotFound None (p, u))
      | Some a =>
        let! e := Agg.deref a u in
        let return_ status response p e :=
          let! w := PRelease p_check_deleter clk true signature a (p, assign a e u) in Ok (p_check_finish status response w) in
        if 0 <? Z.of_nat (length (cs_errors (ce_response e))) then
          if PShouldFlush e p then
            let p := p_ticked p in
            return_ SNotFound None (p_ticked p) (set_ce_last (p_now clk p) e)
          else return_ SOk (Some (ce_response e)) (p_ticked p) e
        else
          let! e := Aggregate ord md5 cf request e in
          if PShouldFlush e p then
            let p := p_ticked p in
            return_ SNotFound None (p_ticked p) (set_ce_last (p_now clk p) (set_ce_flushing true e))
          else return_ SOk (Some (ce_response e)) (p_ticked p) e
      end
  end.

(** check_aggregator_impl.cc:177-203 CacheResponse *)
Definition PCacheResponse (request : check_request) (response : check_response) (st : pcheck_agg) : outcome (pcheck_agg * check_result) :=
  match pca_cache st with
  | None => Ok (st, CheckResult SOk None [])
  | Some p =>
    let signature := GenerateCheckRequestSignature ord md5 request in
    let! wr := PLookup p_check_deleter clk (2 + PLru.p_next p) true signature (p, with_items [] (pca_pool st)) in
    let now := p_now clk wr.1.1 in
    let p := p_ticked wr.1.1 in
    let u := wr.1.2 in
    match wr.2 with
    | Some a =>
      let! e := Agg.deref a u in
      let e := set_ce_flushing false (set_ce_scale 0 (set_ce_response response (set_ce_last now e))) in
      let! w := PRelease p_check_deleter clk true signature a (p, assign a e u) in
      Ok (p_check_finish SOk None w)
    | None =>
      let au := alloc (CheckElem None response now 0 false) u in
      let! w := PInsert p_check_deleter clk (2 + PLru.p_next p) signature au.1 1 (p, au.2) in
      Ok (p_check_finish SOk None w)
    end
  end.

(** check_aggregator_impl.cc:214-224 Flush *)
Definition PCheckFlush (st : pcheck_agg) : outcome (pcheck_agg * check_result) :=
  match pca_cache st with
  | None => Ok (st, CheckResult SOk None [])
  | Some p =>
    let! w := PRemoveExpired p_check_deleter clk (2 + PLru.p_next p) (p, with_items [] (pca_pool st)) in
    Ok (p_check_finish SOk None w)
  end.

(** check_aggregator_impl.cc:240-250 FlushAll *)
Definition PCheckFlushAll (st : pcheck_agg) : outcome (pcheck_agg * check_result) :=
  match pca_cache st with
  | None => Ok (st, CheckResult SOk None [])
  | Some p =>
    let! w := PRemoveAll p_check_deleter ord (p, with_items [] (pca_pool st)) in
    Ok (p_check_finish SOk None w)
  end.

(** check_aggregator_impl.cc:77-82 the destructor *)
Definition PDestroyCheck (st : pcheck_agg) : outcome unit :=
  let! r := PCheckFlushAll st in
  match pca_cache r.1 with None => Ok tt | Some p => PDestroyCache p end.

(** ** Specification: histories *)
Definition p_cstep (call : check_call) (st : pcheck_agg) : outcome (pcheck_agg * check_result) :=
  match call with
  | CCheck q => PCheck q st
  | CCacheResponse q r => PCacheResponse q r st
  | CFlush => PCheckFlush st
  | CFlushAll => PCheckFlushAll st
  end.
(** The calls on a new aggregator in order, each with its result. *)
Fixpoint p_check_calls (calls : list check_call) (st : pcheck_agg) : outcome (pcheck_agg * list (check_call * check_result)) :=
  match calls with
  | [] => Ok (st, [])
  | call :: calls =>
      let! r := p_cstep call st in
      let! rs := p_check_calls calls r.1 in
      Ok (rs.1, (call, r.2) :: rs.2)
  end.
Definition p_check_history (calls : list check_call) : outcome (pcheck_agg * list (check_call * check_result)) :=
  let! st := PNewCheckAggregator in p_check_calls calls st.
End check.

Section report.
Variable ord : hash_order.
Variable md5 : string -> string.
Variable clk : nat -> Z.
Variable cf : report_config.
Notation pool := (pool opagg report_request).
Record preport_agg := PReportAgg { pra_cache : option (plru nat); pra_pool : pool }.

(** report_aggregator_impl.cc:124-136 OnCacheEntryDelete *)
Definition p_report_deleter : string -> nat -> pworld -> outcome pworld := p_passive (delete_with (removed_report ord cf)).

(** report_aggregator_impl.cc:51-66 the constructor *)
Definition PNewReportAggregator : outcome preport_agg :=
  let u := Pool ∅ 0%nat [] in
  if 0 <? ro_entries (rc_options cf) then
    let! t := cycles_of_ms (ro_flush_ms (rc_options cf)) in
    let! p := PNewCache (ro_entries (rc_options cf)) in
    let! w := PSetTimeout p_report_deleter clk 2 t false (p, u) in
    Ok (PReportAgg (Some w.1) w.2)
  else Ok (PReportAgg None u).

Definition p_report_finish (status : status_code) (w : plru nat * pool) : preport_agg * report_result :=
  (PReportAgg (Some w.1) (with_items [] w.2), ReportResult status (p_items w.2)).

(** report_aggregator_impl.cc:100-120 the body of the loop in Report *)
Definition p_report_one (w : plru nat * pool) (operation : operation) : outcome (plru nat * pool) :=
  let signature := GenerateReportOperationSignature ord md5 operation in
  let! wr := PLookup p_report_deleter clk (2 + PLru.p_next w.1) true signature w in
  let p := wr.1.1 in
  let u := wr.1.2 in
  match wr.2 with
  | Some a =>
    let! iop := Agg.deref a u in
    let! iop := MergeOperation ord md5 (rc_kinds cf) operation iop in
    let too_big := TooBig iop in
    let! w := PRelease p_report_deleter clk true signature a (p, assign a iop u) in
    if too_big then PRemove p_report_deleter signature w else Ok w
  | None =>
    let! iop := NewOperationAggregator ord md5 (rc_kinds cf) operation in
    let au := alloc iop u in
    PInsert p_report_deleter clk (2 + PLru.p_next p) signature au.1 1 (p, au.2)
  end.

(** report_aggregator_impl.cc:82-122 Report *)
Definition PReport (request : report_request) (st : preport_agg) : outcome (preport_agg * report_result) :=
  if negb (String.eqb (rr_service request) (rc_service cf)) then Ok (st, ReportResult SInvalidArgument [])
  else match HasHighImportantOperation (rr_operations request), pra_cache st with
  | true, _ => Ok (st, ReportResult SNotFound [])
  | false, None => Ok (st, ReportResult SNotFound [])
  | false, Some p =>
    let! w := ofold p_report_one (p, with_items [] (pra_pool st)) (rr_operations request) in
    Ok (p_report_finish SOk w)
  end.

(** report_aggregator_impl.cc:158-167 Flush *)
Definition PReportFlush (st : preport_agg) : outcome (preport_agg * report_result) :=
  match pra_cache st with
  | None => Ok (st, ReportResult SOk [])
  | Some p =>
    let! w := PRemoveExpired p_report_deleter clk (2 + PLru.p_next p) (p, with_items [] (pra_pool st)) in
    Ok (p_report_finish SOk w)
  end.

(** report_aggregator_impl.cc:171-180 FlushAll *)
Definition PReportFlushAll (st : preport_agg) : outcome (preport_agg * report_result) :=
  match pra_cache st with
  | None => Ok (st, ReportResult SOk [])
  | Some p =>
    let! w := PRemoveAll p_report_deleter ord (p, with_items [] (pra_pool st)) in
    Ok (p_report_finish SOk w)
  end.

(** report_aggregator_impl.cc:68-74 the destructor *)
Definition PDestroyReport (st : preport_agg) : outcome unit :=
  let! r := PReportFlushAll st in
  match pra_cache r.1 with None => Ok tt | Some p => PDestroyCache p end.

(** ** Specification: histories *)
Definition p_rstep (call : report_call) (st : preport_agg) : outcome (preport_agg * report_result) :=
  match call with
  | RReport q => PReport q st
  | RFlush => PReportFlush st
  | RFlushAll => PReportFlushAll st
  end.
Fixpoint p_report_calls (calls : list report_call) (st : preport_agg) : outcome (preport_agg * list (report_call * report_result)) :=
  match calls with
  | [] => Ok (st, [])
  | call :: calls =>
      let! r := p_rstep call st in
      let! rs := p_report_calls calls r.1 in
      Ok (rs.1, (call, r.2) :: rs.2)
  end.
Definition p_report_history (calls : list report_call) : outcome (preport_agg * list (report_call * report_result)) :=
  let! st := PNewReportAggregator in p_report_calls calls st.
End report.

(** ** Specification *)
(** What a history tells its caller. *)
Definition told (h : list check_event) : list (check_call * check_result) := (fun ev => (cv_call ev, cv_result ev)) <$> h.
Definition rtold (h : list report_event) : list (report_call * report_result) := (fun ev => (rv_call ev, rv_result ev)) <$> h.
(** The operations the calls bring. *)
Definition p_checked (calls : list check_call) : list operation := calls ≫= fun call => match call with CCheck q => [op_get (cr_operation q)] | _ => [] end.
Definition p_reported (calls : list report_call) : list operation := calls ≫= fun call => match call with RReport q => rr_operations q | _ => [] end.

(** The cache's memory between calls, when it holds the elements numbered [rec], most recently used first, and [vals]
    are the objects in existence.  (The node of element [n] is number [S n]; 0 is the list's head.) *)
Record tidy {E} (x : plru nat) (vals : gmap nat E) (rec : list nat) : Prop := {
  (* the list's pointers, followed forwards and backwards from its head *)
  td_forward : forward (p_links x) 0 = Some (S <$> rec);
  td_backward : backward (p_links x) 0 = Some (rev (S <$> rec));
  (* no other node, and no other element, is allocated *)
  td_nodes : forall n, is_Some (p_links x !! S n) <-> n ∈ rec;
  td_elements : (map_to_list (p_heap x)).*1 ≡ₚ rec;
  (* the table points at each element under its key, at nothing else *)
  td_table : forall k n, p_table x !! k = Some n <-> exists e, p_heap x !! n = Some e /\ e_key e = k;
  (* nothing is pinned or waits for its release *)
  td_unpinned : forall n e, p_heap x !! n = Some e -> e_pin e = 0;
  td_deferred : p_defer x = ∅;
  (* each element owns one object, and every object is owned *)
  td_owned : (fun q : nat * elem nat => e_value q.2) <$> map_to_list (p_heap x) ≡ₚ (map_to_list vals).*1 }.
