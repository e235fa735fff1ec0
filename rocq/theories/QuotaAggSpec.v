(** What a user of the quota aggregator sees: calls, their results, and histories of them. *)
From Verif Require Import Proto Signature SignatureSpec OpAgg OpAggSpec Lru LruSpec Timeout Agg QuotaAgg.
From stdpp Require Import list.
Local Open Scope Z_scope.

(** The calls of the interface. *)
Inductive quota_call :=
| QQuota (request : quota_request)
| QResponse (request : quota_request) (response : quota_response)
| QFlushC
| QFlushAllC.

(** A finished call: its result, the range of clock readings made during it, and the aggregator after it. *)
Record quota_event := QuotaEvent {
  qv_call : quota_call; qv_result : quota_result; qv_from : nat; qv_to : nat; qv_after : quota_agg }.

Section spec.
Variable debug : bool.
Variable ord : hash_order.
Variable md5 : string -> string.
Variable clk : nat -> Z.
Variable cf : quota_config.

(** A call that may spend [fuel] nested deleter calls. *)
Definition qstep (fuel : nat) (call : quota_call) (st : quota_agg) : outcome (quota_agg * quota_result) :=
  match call with
  | QQuota q => Quota debug ord md5 clk cf fuel q st
  | QResponse q r => QCacheResponse ord md5 clk cf fuel q r st
  | QFlushC => QFlush ord clk cf fuel st
  | QFlushAllC => QFlushAll ord clk cf fuel st
  end.
(** The call returns, and with what. *)
Definition returns (call : quota_call) (st : quota_agg) (r : quota_agg * quota_result) : Prop :=
  exists fuel, qstep fuel call st = Ok r.
(** The call runs forever: it needs more nested calls than any given number. *)
Definition runs_forever (call : quota_call) (st : quota_agg) : Prop :=
  forall fuel, qstep fuel call st = OutOfFuel.
(** How often the clock has been read. *)
Definition qreadings (st : quota_agg) : nat := match qg_cache st with Some c => l_tick c | None => 0%nat end.

(** The states and histories of an aggregator from its construction on. *)
Inductive qreach : quota_agg -> list quota_event -> Prop :=
| qreach_new st : NewQuotaAggregator ord clk cf = Ok st -> qreach st []
| qreach_step st h call st' res :
    qreach st h -> returns call st (st', res) ->
    qreach st' (h ++ [QuotaEvent call res (qreadings st) (qreadings st') st']).

Definition qsig (q : quota_request) : string := GenerateAllocateQuotaRequestSignature md5 q.
(** A request for the right service that has an operation. *)
Definition well_addressed (q : quota_request) : Prop := qr_service q = qf_service cf /\ qr_operation q <> None.

(** The object that is cached for a signature.  Addresses are never used twice, so two states have the same object
    for a signature exactly when the entry has been in the cache all the time between them. *)
Definition entry (st : quota_agg) (sig : string) : option nat :=
  match qg_cache st with
  | None => None
  | Some c => match l_table c !! sig with None => None | Some id => match l_heap c !! id with None => None | Some x => Some (e_value x) end end
  end.
Definition qcached (st : quota_agg) (sig : string) : Prop := entry st sig <> None.
(** The entry of [sig] is in the cache in both states and has not left it in between. *)
Definition stays (st st' : quota_agg) (sig : string) : Prop := qcached st sig /\ entry st' sig = entry st sig.
(** How many entries there are. *)
Definition qsize (st : quota_agg) : nat := match qg_cache st with None => 0%nat | Some c => size (l_table c) end.

(** [ev] hands a request of signature [sig] to the flush callback. *)
Definition hands_out (sig : string) (ev : quota_event) : Prop :=
  Exists (fun q => qsig q = sig) (qres_flushed (qv_result ev)).
(** [ev] stores an answer for [sig]. *)
Definition responds (sig : string) (ev : quota_event) : Prop := exists q r, qv_call ev = QResponse q r /\ qsig q = sig.
Definition responds_with (sig : string) (r : quota_response) (ev : quota_event) : Prop :=
  exists q, qv_call ev = QResponse q r /\ qsig q = sig.
(** [ev] asks for quota for [sig]. *)
Definition qasks (sig : string) (ev : quota_event) : Prop := exists q, qv_call ev = QQuota q /\ well_addressed q /\ qsig q = sig.

(** The answer carries no errors. *)
Definition granted_by (r : quota_response) : Prop := qs_errors r = [].

(** The requests of the history that have the same signature are about the same method, consumer and metrics (true
    of requests without NUL characters whose hashed bytes do not collide: C10). *)
Definition about (q : quota_request) : string * string * gset string :=
  let o := qop_get (qr_operation q) in (qo_method o, qo_consumer o, metric_names (qo_metrics o)).
Definition told_apart (h : list quota_event) : Prop :=
  forall ev1 ev2 q1 q2, ev1 ∈ h -> ev2 ∈ h -> qv_call ev1 = QQuota q1 -> qv_call ev2 = QQuota q2 -> qsig q1 = qsig q2 -> about q1 = about q2.

(** A reading of the clock made during an event; the most recent event with a property. *)
Definition qduring (t : Z) (ev : quota_event) : Prop := exists i, (qv_from ev <= i < qv_to ev)%nat /\ t = clk i.
Definition qmost_recent (P : quota_event -> Prop) (h : list quota_event) (ev : quota_event) : Prop :=
  exists h1 h2, h = h1 ++ ev :: h2 /\ P ev /\ Forall (fun e => ~ P e) h2.

(** ** Accounting *)
(** The operations of the requests that were answered positively, in order. *)
Definition granted_op (ev : quota_event) : list quota_operation :=
  match qv_call ev, qres_status (qv_result ev), qres_response (qv_result ev) with
  | QQuota q, SOk, Some r => match qs_errors r with [] => [qop_get (qr_operation q)] | _ => [] end
  | _, _, _ => []
  end.
Definition granted (h : list quota_event) : list quota_operation := h ≫= granted_op.
(** Everything given to the flush callback, in order. *)
Definition qflushed (h : list quota_event) : list quota_request := h ≫= fun ev => qres_flushed (qv_result ev).
(** The request charges the operations of the group: it is the request of the only one, or their merge in this order. *)
Definition charges (g : list quota_operation) (q : quota_request) : Prop :=
  (exists o, g = [o] /\ qop_get (qr_operation q) = o) \/
  exists first rest o, g = first :: rest /\ quota_aggregate debug ord first rest = Ok o /\
    q = QuotaRequest (qf_service cf) (Some o) (qf_config_id cf).
(** The operation is the merge of the group in this order. *)
Definition adds_up (g : list quota_operation) (o : quota_operation) : Prop :=
  exists first rest, g = first :: rest /\ quota_aggregate debug ord first rest = Ok o.
(** What the cached entries have accumulated and not sent yet. *)
Definition accumulated (st : quota_agg) : list quota_operation :=
  match qg_cache st with
  | None => []
  | Some c => omap (fun kid : string * nat =>
      match l_heap c !! kid.2 with
      | None => None
      | Some x => match p_vals (qg_pool st) !! e_value x with
                  | None => None
                  | Some e => QuotaToOperationProto ord <$> qe_agg e
                  end
      end) (map_to_list (l_table c))
  end.
(** [q] repeats a request of the history, up to the quota mode. *)
Definition repeats (h : list quota_event) (q : quota_request) : Prop :=
  exists ev q0, ev ∈ h /\ qv_call ev = QQuota q0 /\ (q = q0 \/ q = in_normal_mode q0).
(** The amount of a metric in some operations. *)
Definition tokens (name : string) (ops : list quota_operation) : Z :=
  sum_Z ((fun v => match mv_value v with VInt64 z => z | _ => 0 end) <$> (ops ≫= amounts_of name)).
End spec.
Section times.
(** When the cached entry of a signature was put into the cache (again), and its last refresh, as recorded in it. *)
Definition inserted_at (st : quota_agg) (sig : string) : option Z :=
  match qg_cache st with
  | None => None
  | Some c => match l_table c !! sig with None => None | Some id => e_last <$> l_heap c !! id end
  end.
Definition recorded (st : quota_agg) (sig : string) : option quota_elem :=
  match entry st sig with None => None | Some a => p_vals (qg_pool st) !! a end.
Definition last_refresh (st : quota_agg) (sig : string) : option Z := qe_last <$> recorded st sig.
End times.

Section room.
Variable md5 : string -> string.
Variable clk : nat -> Z.
Variable cf : quota_config.
(** The operations quota was asked for, in order. *)
Definition asked (h : list quota_event) : list quota_operation :=
  h ≫= fun ev => match qv_call ev with QQuota q => [qop_get (qr_operation q)] | _ => [] end.
(** The signature is cached, the cache has room, some entry is stale, or the flag that FlushAll sets is set. *)
Definition room (st : quota_agg) (h : list quota_event) (q : quota_request) : Prop :=
  qcached st (qsig md5 q) \/ Z.of_nat (qsize st) < qp_entries (qf_options cf) \/
  (exists k t, last_refresh st k = Some t /\ expiration_interval_in_cycle cf <= clk (qreadings st) - t) \/
  Exists (fun ev => qv_call ev = QFlushAllC) h.
(** No entry ever leaves the cache. *)
Definition nothing_leaves (h : list quota_event) : Prop :=
  forall h1 ev1 ev2 h2 k, h = h1 ++ ev1 :: ev2 :: h2 -> qcached (qv_after ev1) k -> stays (qv_after ev1) (qv_after ev2) k.
(** No answer with errors is ever stored. *)
Definition never_denied (h : list quota_event) : Prop :=
  forall ev q r, ev ∈ h -> qv_call ev = QResponse q r -> granted_by r.
(** Every answer for [k] follows a request of that signature that was handed out and not answered since. *)
Definition solicited (k : string) (h : list quota_event) : Prop :=
  forall h1 ev h2, h = h1 ++ ev :: h2 -> responds md5 k ev ->
    exists h3 ev0 h4, h1 = h3 ++ ev0 :: h4 /\ hands_out md5 k ev0 /\ Forall (fun ev => ~ responds md5 k ev) h4.
End room.
