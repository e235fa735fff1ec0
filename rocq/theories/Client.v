(** The client: src/service_control_client_impl.cc/.h, and the locking of src/cache_removed_items_handler.h.

    Threads interleave at the granularity of the instructions below.  The body of an aggregator call runs under the
    aggregator's cache_mutex_ and is one instruction; taking and releasing each mutex, every callback, every
    transport call and every counter update are instructions of their own.

    Simplifications: an aggregator call that returns before it takes cache_mutex_ (wrong service, no operation,
    caching disabled) takes it here all the same; the mutex of the std::future of the blocking calls is not modelled;
    an aggregator that the client has created is never deallocated (its users hold a shared_ptr, except the
    completion of a flushed quota request, see [touches]); a call of an aggregator that has undefined behaviour or
    does not terminate has no successor state. *)
From Verif Require Import Base Proto Signature OpAgg Lru Timeout Agg CheckAgg CheckAggSpec QuotaAgg QuotaAggSpec ReportAgg ReportAggSpec.
From stdpp Require Import gmap list.
Local Open Scope Z_scope.

(** The three aggregators. *)
Inductive kind := KCheck | KQuota | KReport.
#[global] Instance kind_eq_dec : EqDecision kind.
Proof. solve_decision. Defined.

(** What is sent to the server, and what it answers.  ReportResponse has no field that the client looks at. *)
Inductive request := RqCheck (q : check_request) | RqQuota (q : quota_request) | RqReport (q : report_request).
Inductive reply := RpNone | RpCheck (r : check_response) | RpQuota (r : quota_response) | RpReport.
Definition kind_of (q : request) : kind := match q with RqCheck _ => KCheck | RqQuota _ => KQuota | RqReport _ => KReport end.

(** Calls of the aggregators. *)
Inductive agg_call := OnCheck (c : check_call) | OnQuota (c : quota_call) | OnReport (c : report_call).
Definition call_kind (c : agg_call) : kind := match c with OnCheck _ => KCheck | OnQuota _ => KQuota | OnReport _ => KReport end.
(** The result of such a call, with the items that its stack buffer flushes. *)
Record result := Result { rs_status : status_code; rs_reply : reply; rs_flushed : list request }.
Definition check_res (r : check_result) : result :=
  Result (cres_status r) (match cres_response r with Some x => RpCheck x | None => RpNone end) (RqCheck <$> cres_flushed r).
Definition quota_res (r : quota_result) : result :=
  Result (qres_status r) (match qres_response r with Some x => RpQuota x | None => RpNone end) (RqQuota <$> qres_flushed r).
Definition report_res (r : report_result) : result := Result (rres_status r) RpNone (RqReport <$> rres_flushed r).
(** The aggregators with the histories of their finished calls. *)
Record aggs := Aggs {
  ag_check : check_agg; ag_hc : list check_event;
  ag_quota : quota_agg; ag_hq : list quota_event;
  ag_report : report_agg; ag_hr : list report_event }.

(** include/service_control_client.h:79-118 ServiceControlClientOptions and the arguments of the constructor.  Only
    whether a function was supplied matters of the transports and of periodic_timer. *)
Record client_config := ClientConfig {
  cf_service : string; cf_config_id : string;
  cf_check : check_options; cf_quota : quota_options; cf_report : report_options;
  cf_kinds : option (gmap string metric_kind);
  cf_transport : kind -> bool; cf_timer : bool }.
Definition cf_checks (cf : client_config) := CheckConfig (cf_service cf) (cf_config_id cf) (cf_check cf) (cf_kinds cf).
Definition cf_quotas (cf : client_config) := QuotaConfig (cf_service cf) (cf_config_id cf) (cf_quota cf).
Definition cf_reports (cf : client_config) := ReportConfig (cf_service cf) (cf_config_id cf) (cf_report cf) (cf_kinds cf).

(** A call of Check, Quota or Report by the user.  [ap_own] is the per-request transport, if the overload has one: is
    it non-null?  [ap_blocking] is the overload that returns the status. *)
Record api := Api { ap_request : request; ap_own : option bool; ap_blocking : bool }.
(** service_control_client_impl.cc:226-230, 301-306, 350-354, 237 and so on: the other overloads use the default transport. *)
Definition has_transport (cf : client_config) (a : api) : bool :=
  match ap_own a, ap_blocking a with
  | Some own, false => own
  | _, _ => cf_transport cf (kind_of (ap_request a))
  end.

(** The functions that are given to the transports as on_done. *)
Inductive completion :=
| CheckDone (c : nat) (q : check_request)     (* service_control_client_impl.cc:207-218 *)
| QuotaDone (c : nat) (q : quota_request)     (* 272-291 *)
| ReportDone (c : nat)                        (* 345: the user's on_report_done itself *)
| FlushedCheck                                (* 166-172 *)
| FlushedQuota (q : quota_request)            (* 142-157 *)
| FlushedReport.                              (* 180-186 *)

(** service_control_client_impl.h:139-150 the counters *)
Inductive counter := TotalCalled (k : kind) | ByFlush (k : kind) | InFlight (k : kind) | ReportOperations.
#[global] Instance counter_eq_dec : EqDecision counter.
Proof. solve_decision. Defined.

(** On whose behalf the transport is called: the user's call [c], or the flush callback for call number [n] of the
    aggregator [k]. *)
Inductive origin := FromCall (c : nat) | FromFlush (k : kind) (n : nat).

Inductive instr :=
| IUser                                            (* code of the user: a thread, a callback, the transport library *)
| ICount (o : origin) (c : counter) (n : Z)        (* an atomic increment *)
| IGate (c : nat) (a : api)                        (* is there a transport? *)
| IAgg (call : agg_call) (u : option (nat * api))  (* MutexLock lock(cache_mutex_), for an aggregator call *)
| IBody (call : agg_call) (u : option (nat * api)) (* its body, up to the end of the lock's scope *)
| IUnlock (k : kind)                               (* cache_mutex_ is released *)
| IFlush (k : kind) (n : nat) (q : request)        (* FlushOut takes callback_mutex_ *)
| IInvoke (k : kind) (n : nat) (q : request)       (* if (flush_callback_) flush_callback_(request) *)
| IUnlockCallback (k : kind)                       (* callback_mutex_ is released *)
| IAggReturn (k : kind) (n : nat)                  (* the aggregator call returns *)
| IAfter (c : nat) (a : api) (n : nat) (r : result) (* the caller looks at the status *)
| ITransport (o : origin) (q : request) (f : completion)
| ICompleted (i : nat) (f : completion) (s : status_code) (r : reply)
| IDone (c : nat) (s : status_code) (r : reply)    (* the user's on_done; that of a blocking call only sets the promise, but may do anything here *)
| IWait (c : nat)                                  (* status_future.wait() *)
| IReturn (c : nat)                                (* the user's call returns *)
| IDisconnect (k : kind)                           (* SetFlushCallback(NULL) *)
| IStopTimer
| IFree.                                           (* the end of the destructor *)

(** What can be observed, in order; [t] is always the thread. *)
Inductive event :=
| EStart (t c : nat) (a : api)
| EAgg (t : nat) (k : kind) (n : nat) (u : option nat)
| ECallback (t : nat) (k : kind) (n : nat) (q : request)
| EDropped (t : nat) (k : kind) (n : nat) (q : request)
| EAggReturn (t : nat) (k : kind) (n : nat)
| ETransport (t i : nat) (o : origin) (q : request)
| ECompleted (t i : nat) (s : status_code) (r : reply) (in_place : bool)
| EDone (t c : nat) (s : status_code) (r : reply)
| EReturn (t c : nat)
| ETick (t : nat)
| EDestroy (t : nat)
| EDisconnect (t : nat) (k : kind)
| EFreed (t : nat).

(** A use of the deleted client, or a call of a null std::function: std::bad_function_call leaves the destructor of
    the stack buffer, which is noexcept, so the program is terminated. *)
Inductive crash := UseAfterDestroy (i : instr) | NullTransport (k : kind).

Record world := World {
  w_aggs : aggs;
  w_cache : kind -> option nat;        (* the thread that holds cache_mutex_ *)
  w_callback : kind -> option nat;     (* the thread that holds callback_mutex_ *)
  w_connected : kind -> bool;          (* flush_callback_ is not null *)
  w_pending : list (nat * completion); (* transport calls that have not been completed *)
  w_count : counter -> Z;
  w_alive : bool;                      (* the client has not been deleted *)
  w_closing : bool;                    (* its destructor has been called *)
  w_timer : bool;                      (* the periodic timer is running *)
  w_calls : nat;                       (* the number of calls made by the user *)
  w_sends : nat;                       (* the number of calls of the transports *)
  w_open : list nat;                   (* the user's calls that have not returned *)
  w_trace : list event;
  w_crash : option crash }.

Definition fset {A B} `{EqDecision A} (a : A) (b : B) (f : A -> B) : A -> B := fun x => if decide (x = a) then b else f x.
Definition set_aggs x w := World x (w_cache w) (w_callback w) (w_connected w) (w_pending w) (w_count w) (w_alive w) (w_closing w) (w_timer w) (w_calls w) (w_sends w) (w_open w) (w_trace w) (w_crash w).
Definition set_cache x w := World (w_aggs w) x (w_callback w) (w_connected w) (w_pending w) (w_count w) (w_alive w) (w_closing w) (w_timer w) (w_calls w) (w_sends w) (w_open w) (w_trace w) (w_crash w).
Definition set_callback x w := World (w_aggs w) (w_cache w) x (w_connected w) (w_pending w) (w_count w) (w_alive w) (w_closing w) (w_timer w) (w_calls w) (w_sends w) (w_open w) (w_trace w) (w_crash w).
Definition set_connected x w := World (w_aggs w) (w_cache w) (w_callback w) x (w_pending w) (w_count w) (w_alive w) (w_closing w) (w_timer w) (w_calls w) (w_sends w) (w_open w) (w_trace w) (w_crash w).
Definition set_pending x w := World (w_aggs w) (w_cache w) (w_callback w) (w_connected w) x (w_count w) (w_alive w) (w_closing w) (w_timer w) (w_calls w) (w_sends w) (w_open w) (w_trace w) (w_crash w).
Definition set_count x w := World (w_aggs w) (w_cache w) (w_callback w) (w_connected w) (w_pending w) x (w_alive w) (w_closing w) (w_timer w) (w_calls w) (w_sends w) (w_open w) (w_trace w) (w_crash w).
Definition set_alive x w := World (w_aggs w) (w_cache w) (w_callback w) (w_connected w) (w_pending w) (w_count w) x (w_closing w) (w_timer w) (w_calls w) (w_sends w) (w_open w) (w_trace w) (w_crash w).
Definition set_closing x w := World (w_aggs w) (w_cache w) (w_callback w) (w_connected w) (w_pending w) (w_count w) (w_alive w) x (w_timer w) (w_calls w) (w_sends w) (w_open w) (w_trace w) (w_crash w).
Definition set_timer x w := World (w_aggs w) (w_cache w) (w_callback w) (w_connected w) (w_pending w) (w_count w) (w_alive w) (w_closing w) x (w_calls w) (w_sends w) (w_open w) (w_trace w) (w_crash w).
Definition set_calls x w := World (w_aggs w) (w_cache w) (w_callback w) (w_connected w) (w_pending w) (w_count w) (w_alive w) (w_closing w) (w_timer w) x (w_sends w) (w_open w) (w_trace w) (w_crash w).
Definition set_sends x w := World (w_aggs w) (w_cache w) (w_callback w) (w_connected w) (w_pending w) (w_count w) (w_alive w) (w_closing w) (w_timer w) (w_calls w) x (w_open w) (w_trace w) (w_crash w).
Definition set_open x w := World (w_aggs w) (w_cache w) (w_callback w) (w_connected w) (w_pending w) (w_count w) (w_alive w) (w_closing w) (w_timer w) (w_calls w) (w_sends w) x (w_trace w) (w_crash w).
Definition set_crash x w := World (w_aggs w) (w_cache w) (w_callback w) (w_connected w) (w_pending w) (w_count w) (w_alive w) (w_closing w) (w_timer w) (w_calls w) (w_sends w) (w_open w) (w_trace w) (Some x).
Definition log (ev : event) w := World (w_aggs w) (w_cache w) (w_callback w) (w_connected w) (w_pending w) (w_count w) (w_alive w) (w_closing w) (w_timer w) (w_calls w) (w_sends w) (w_open w) (w_trace w ++ [ev]) (w_crash w).

(** ** The code of the client *)

(** service_control_client_impl.cc:201, 262, 340: the aggregator call that serves the user's request *)
Definition agg_call_of (q : request) : agg_call :=
  match q with RqCheck q => OnCheck (CCheck q) | RqQuota q => OnQuota (QQuota q) | RqReport q => OnReport (RReport q) end.
Definition operations_in (q : request) : Z := match q with RqReport q => Z.of_nat (length (rr_operations q)) | _ => 0 end.
(** 191-230 Check, 252-306 Quota, 330-354 Report, and the blocking 232-250, 308-328, 356-374 *)
Definition api_code (c : nat) (a : api) : list instr :=
  [ICount (FromCall c) (TotalCalled (kind_of (ap_request a))) 1; IGate c a] ++
  (if ap_blocking a then [IWait c] else []) ++ [IReturn c].
(** The completion that the call gives to the transport (207, 272, 345) *)
Definition on_done (c : nat) (q : request) : completion :=
  match q with RqCheck q => CheckDone c q | RqQuota q => QuotaDone c q | RqReport _ => ReportDone c end.
(** 202-223, 263-298, 341-347: after the aggregator call *)
Definition after_code (c : nat) (a : api) (r : result) : list instr :=
  let q := ap_request a in
  if status_eqb (rs_status r) SNotFound then
    [ITransport (FromCall c) q (on_done c q); ICount (FromCall c) (InFlight (kind_of q)) 1] ++
    match q with RqReport _ => [ICount (FromCall c) ReportOperations (operations_in q)] | _ => [] end
  else [IDone c (rs_status r) (rs_reply r)].
(** 135-160, 162-174, 176-189 the flush callbacks *)
Definition flush_done (q : request) : completion :=
  match q with RqCheck _ => FlushedCheck | RqQuota q => FlushedQuota q | RqReport _ => FlushedReport end.
Definition callback_code (k : kind) (n : nat) (q : request) : list instr :=
  [ITransport (FromFlush k n) q (flush_done q); ICount (FromFlush k n) (ByFlush k) 1] ++
  match q with RqReport _ => [ICount (FromFlush k n) ReportOperations (operations_in q)] | _ => [] end.
Definition check_reply (r : reply) : check_response := match r with RpCheck r => r | _ => CheckResponse [] "" end.
Definition quota_reply (r : reply) : quota_response := match r with RpQuota r => r | _ => empty_quota_response end.
(** The code of the completions *)
Definition completed_code (f : completion) (s : status_code) (r : reply) : list instr :=
  match f with
  | CheckDone c q => (if status_eqb s SOk then [IAgg (OnCheck (CCacheResponse q (check_reply r))) None] else []) ++ [IDone c s r]
  | QuotaDone c q => [IAgg (OnQuota (QResponse q (if status_eqb s SOk then quota_reply r else empty_quota_response))) None; IDone c s r]
  | ReportDone c => [IDone c s r]
  | FlushedCheck => []
  | FlushedQuota q => [IAgg (OnQuota (QResponse q (if status_eqb s SOk then quota_reply r else empty_quota_response))) None]
  | FlushedReport => []
  end.
(** 85-112 the function that the timer calls *)
Definition tick_code : list instr := [IAgg (OnCheck CFlush) None; IAgg (OnQuota QFlushC) None; IAgg (OnReport RFlush) None].
(** 116-133 the destructor, with 421-433 FlushAll *)
Definition destroy_code : list instr :=
  [IAgg (OnCheck CFlushAll) None; IAgg (OnQuota QFlushAllC) None; IAgg (OnReport RFlushAll) None;
   IStopTimer; IDisconnect KCheck; IDisconnect KQuota; IDisconnect KReport; IFree].

(** The instructions that use the client object itself through [this].  The aggregators are reached through copies of
    the shared_ptr, except in 142-157, where the completion dereferences this->quota_aggregator_. *)
Definition touches (w : world) (i : instr) : bool :=
  match i with
  | ICount _ _ _ | IGate _ _ => true
  | IInvoke k _ _ => w_connected w k
  | ICompleted _ (FlushedQuota _) _ _ => true
  | _ => false
  end.

(** What the scheduler, the user, the transport and the clock choose. *)
Inductive choice :=
| Go
| Fuel (fuel : nat)                                (* the nesting that a quota call may use *)
| Leave                                            (* the user's code returns *)
| Call (a : api)
| Complete (p : nat) (s : status_code) (r : reply) (* the transport completes the pending call at position [p] *)
| InPlace (s : status_code) (r : reply)            (* the transport completes before it returns *)
| Tick
| Destroy.

Section client.
Variable debug : bool.
Variable ord : hash_order.
Variable md5 : string -> string.
(** Each aggregator reads the clock at its own times. *)
Variable clk : kind -> nat -> Z.
Variable cf : client_config.

(** The finished calls of an aggregator. *)
Definition calls (k : kind) (a : aggs) : list (agg_call * result) :=
  match k with
  | KCheck => (fun ev => (OnCheck (cv_call ev), check_res (cv_result ev))) <$> ag_hc a
  | KQuota => (fun ev => (OnQuota (qv_call ev), quota_res (qv_result ev))) <$> ag_hq a
  | KReport => (fun ev => (OnReport (rv_call ev), report_res (rv_result ev))) <$> ag_hr a
  end.
(** An aggregator call. *)
Definition agg_step (fuel : nat) (call : agg_call) (a : aggs) : outcome (aggs * result) :=
  match call with
  | OnCheck c =>
    let! r := cstep ord md5 (clk KCheck) (cf_checks cf) c (ag_check a) in
    Ok (Aggs r.1 (ag_hc a ++ [CheckEvent c r.2 (readings (ag_check a)) (readings r.1) r.1]) (ag_quota a) (ag_hq a) (ag_report a) (ag_hr a), check_res r.2)
  | OnQuota c =>
    let! r := qstep debug ord md5 (clk KQuota) (cf_quotas cf) fuel c (ag_quota a) in
    Ok (Aggs (ag_check a) (ag_hc a) r.1 (ag_hq a ++ [QuotaEvent c r.2 (qreadings (ag_quota a)) (qreadings r.1) r.1]) (ag_report a) (ag_hr a), quota_res r.2)
  | OnReport c =>
    let! r := rstep ord md5 (clk KReport) (cf_reports cf) c (ag_report a) in
    Ok (Aggs (ag_check a) (ag_hc a) (ag_quota a) (ag_hq a) r.1 (ag_hr a ++ [ReportEvent c r.2 (rreadings (ag_report a)) (rreadings r.1) r.1]), report_res r.2)
  end.

(** One instruction: what replaces it on the stack of the thread, and the new state. *)
Definition exec (t : nat) (ch : choice) (i : instr) (w : world) : option (list instr * world) :=
  if touches w i && negb (w_alive w) then Some ([], set_crash (UseAfterDestroy i) w)
  else match i, ch with
  | IUser, Leave => Some ([], w)
  | IUser, Call a =>
    (* the user must not call a client that is being destroyed *)
    if w_alive w && negb (w_closing w) then
      let c := w_calls w in
      Some (api_code c a ++ [IUser], log (EStart t c a) (set_open (c :: w_open w) (set_calls (S c) w)))
    else None
  | IUser, Complete p s r =>
    match w_pending w !! p with
    | Some (i, f) => Some ([ICompleted i f s r; IUser], log (ECompleted t i s r false) (set_pending (delete p (w_pending w)) w))
    | None => None
    end
  | IUser, Tick => if w_timer w then Some (tick_code ++ [IUser], log (ETick t) w) else None
  | IUser, Destroy =>
    (* the user must not destroy the client twice, or during a call *)
    if w_alive w && negb (w_closing w) && bool_decide (w_open w = []) then
      Some (destroy_code ++ [IUser], log (EDestroy t) (set_closing true w))
    else None
  | ICount _ c n, Go => Some ([], set_count (fset c (w_count w c + n) (w_count w)) w)
  | IGate c a, Go =>
    if has_transport cf a then Some ([IAgg (agg_call_of (ap_request a)) (Some (c, a))], w)
    else Some ([IDone c SInvalidArgument RpNone], w)
  | IAgg call u, Go =>
    match w_cache w (call_kind call) with
    | None => Some ([IBody call u], set_cache (fset (call_kind call) (Some t) (w_cache w)) w)
    | Some _ => None
    end
  | IBody call u, Fuel fuel =>
    let k := call_kind call in
    let n := length (calls k (w_aggs w)) in
    match agg_step fuel call (w_aggs w) with
    | Ok (a, r) =>
      Some ([IUnlock k] ++ (IFlush k n <$> rs_flushed r) ++ [IAggReturn k n] ++ (match u with Some (c, a) => [IAfter c a n r] | None => [] end),
            log (EAgg t k n (fst <$> u)) (set_aggs a w))
    | _ => None
    end
  | IUnlock k, Go => Some ([], set_cache (fset k None (w_cache w)) w)
  | IFlush k n q, Go =>
    match w_callback w k with
    | None => Some ([IInvoke k n q; IUnlockCallback k], set_callback (fset k (Some t) (w_callback w)) w)
    | Some _ => None
    end
  | IInvoke k n q, Go =>
    if w_connected w k then
      if cf_transport cf k then Some (callback_code k n q, log (ECallback t k n q) w)
      else Some ([], set_crash (NullTransport k) w)
    else Some ([], log (EDropped t k n q) w)
  | IUnlockCallback k, Go => Some ([], set_callback (fset k None (w_callback w)) w)
  | IAggReturn k n, Go => Some ([], log (EAggReturn t k n) w)
  | IAfter c a n r, Go => Some (after_code c a r, w)
  | ITransport o q f, Go =>
    Some ([], log (ETransport t (w_sends w) o q) (set_pending (w_pending w ++ [(w_sends w, f)]) (set_sends (S (w_sends w)) w)))
  | ITransport o q f, InPlace s r =>
    Some ([ICompleted (w_sends w) f s r],
          log (ECompleted t (w_sends w) s r true) (log (ETransport t (w_sends w) o q) (set_sends (S (w_sends w)) w)))
  | ICompleted i f s r, Go => Some (completed_code f s r, w)
  | IDone c s r, Go => Some ([IUser], log (EDone t c s r) w)
  | IWait c, Go =>
    if existsb (fun ev => match ev with EDone _ c' _ _ => Nat.eqb c' c | _ => false end) (w_trace w) then Some ([], w) else None
  | IReturn c, Go => Some ([], log (EReturn t c) (set_open (filter (fun c' => c' <> c) (w_open w)) w))
  | IDisconnect k, Go =>
    match w_callback w k with
    | None => Some ([], log (EDisconnect t k) (set_connected (fset k false (w_connected w)) w))
    | Some _ => None
    end
  | IStopTimer, Go => Some ([], set_timer false w)
  | IFree, Go => Some ([], log (EFreed t) (set_alive false w))
  | _, _ => None
  end.

(** 376-390 GetStatistics, include/service_control_client.h:121-148.  The counters are std::atomic_int_fast64_t and the fields uint64_t: neither wraps in the model. *)
Record kind_statistics := KindStatistics { sc_total : Z; sc_by_flush : Z; sc_in_flight : Z }.
Record statistics := Statistics { sc_checks : kind_statistics; sc_quotas : kind_statistics; sc_reports : kind_statistics; sc_report_operations : Z }.
Definition GetStatistics (w : world) : statistics :=
  Statistics
    (KindStatistics (w_count w (TotalCalled KCheck)) (w_count w (ByFlush KCheck)) (w_count w (InFlight KCheck)))
    (KindStatistics (w_count w (TotalCalled KQuota)) (w_count w (ByFlush KQuota)) (w_count w (InFlight KQuota)))
    (KindStatistics (w_count w (TotalCalled KReport)) (w_count w (ByFlush KReport)) (w_count w (InFlight KReport)))
    (w_count w ReportOperations).

(** 392-405 GetNextFlushInterval *)
Definition GetNextFlushInterval (a : aggs) : Z :=
  let or_max x := if x <? 0 then int32_max else x in
  Z.min (or_max (CheckAgg.GetNextFlushInterval (cf_checks cf) (ag_check a)))
    (Z.min (or_max (QGetNextFlushInterval (cf_quotas cf) (ag_quota a))) (or_max (ReportAgg.GetNextFlushInterval (cf_reports cf) (ag_report a)))).

(** 38-114 the constructor: the interval that is given to periodic_timer, if it is called *)
Definition timer_interval (a : aggs) : option Z :=
  if cf_timer cf && (0 <? GetNextFlushInterval a) then Some (GetNextFlushInterval a) else None.
Definition new_aggs : outcome aggs :=
  let! c := NewCheckAggregator ord (clk KCheck) (cf_checks cf) in
  let! q := NewQuotaAggregator ord (clk KQuota) (cf_quotas cf) in
  let! r := NewReportAggregator ord (clk KReport) (cf_reports cf) in
  Ok (Aggs c [] q [] r []).
Definition new_world (a : aggs) : world :=
  World a (fun _ => None) (fun _ => None) (fun _ => true) [] (fun _ => 0) true false
    (match timer_interval a with Some _ => true | None => false end) 0 0 [] [] None.

(** A thread is a stack of instructions.  A step starts a thread of the user or executes an instruction of one. *)
Definition step (t : nat) (ch : choice) (s : list (list instr) * world) : option (list (list instr) * world) :=
  match w_crash s.2 with
  | Some _ => None
  | None =>
    match s.1 !! t with
    | None => Some (s.1 ++ [[IUser]], s.2)
    | Some [] => None
    | Some (i :: rest) =>
      match exec t ch i s.2 with
      | Some (new, w) => Some (<[t := new ++ rest]> s.1, w)
      | None => None
      end
    end
  end.

(** The states that a client can get into. *)
Inductive reach : list (list instr) * world -> Prop :=
| reach_new a : new_aggs = Ok a -> reach ([], new_world a)
| reach_step s t ch s' : reach s -> step t ch s = Some s' -> reach s'.
End client.
