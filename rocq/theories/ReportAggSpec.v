(** What a user of the report aggregator sees: calls, their results, and histories of them. *)
From Verif Require Import Proto Signature OpAgg OpAggSpec Lru LruSpec Timeout Agg ReportAgg.
From stdpp Require Import list.
Local Open Scope Z_scope.

(** The calls of the interface. *)
Inductive report_call :=
| RReport (request : report_request)
| RFlush
| RFlushAll.

(** A finished call: its result, the range of clock readings made during it, and the aggregator after it. *)
Record report_event := ReportEvent {
  rv_call : report_call; rv_result : report_result; rv_from : nat; rv_to : nat; rv_after : report_agg }.

Section spec.
Variable ord : hash_order.
Variable md5 : string -> string.
Variable clk : nat -> Z.
Variable cf : report_config.

Definition rstep (call : report_call) (st : report_agg) : outcome (report_agg * report_result) :=
  match call with
  | RReport q => Report ord md5 clk cf q st
  | RFlush => Flush ord clk cf st
  | RFlushAll => FlushAll ord cf st
  end.
(** How often the clock has been read. *)
Definition rreadings (st : report_agg) : nat := match ra_cache st with Some c => l_tick c | None => 0%nat end.

(** The states and histories of an aggregator from its construction on. *)
Inductive rreach : report_agg -> list report_event -> Prop :=
| rreach_new st : NewReportAggregator ord clk cf = Ok st -> rreach st []
| rreach_step st h call st' res :
    rreach st h -> rstep call st = Ok (st', res) ->
    rreach st' (h ++ [ReportEvent call res (rreadings st) (rreadings st') st']).

(** The operations accepted with OK, in order. *)
Definition accepted_ops (ev : report_event) : list operation :=
  match rv_call ev, rres_status (rv_result ev) with RReport q, SOk => rr_operations q | _, _ => [] end.
Definition accepted (h : list report_event) : list operation := h ≫= accepted_ops.
(** The requests given to the flush callback, in order, and the operations in them. *)
Definition rflushed (h : list report_event) : list report_request := h ≫= fun ev => rres_flushed (rv_result ev).
Definition ops_of (qs : list report_request) : list operation := qs ≫= rr_operations.

(** Two operations are aggregated when their signatures agree. *)
Definition rsig (o : operation) : string := GenerateReportOperationSignature ord md5 o.
(** [o] is what comes out when the operations of the group are merged in this order. *)
Definition merges (g : list operation) (o : operation) : Prop :=
  exists first rest, g = first :: rest /\ aggregate ord md5 (rc_kinds cf) first rest = Ok o.
(** The operations of signature [k], and the groups of operations of signature [k], in order. *)
Definition with_sig (k : string) (ops : list operation) : list operation := filter (fun o => rsig o = k) ops.
Definition group_sig (k : string) (gs : list (list operation)) : list (list operation) :=
  filter (fun g => Exists (fun o => rsig o = k) g) gs.
(** The operations are split into these groups: only operations of equal signature share a group, and the groups of a
    signature hold its operations in order, each once. *)
Definition split_into (ops : list operation) (gs : list (list operation)) : Prop :=
  Forall (fun g => exists k, Forall (fun o => rsig o = k) g) gs /\
  forall k, concat (group_sig k gs) = with_sig k ops.

(** Log entries of a group of operations. *)
Definition logs_in (g : list operation) : nat := sum_list (length ∘ op_logs <$> g).

(** [ev] made a reading of the clock of at least [t]. *)
Definition reads_since (t : Z) (ev : report_event) : Prop :=
  Exists (fun i => t <= clk i) (seq (rv_from ev) (rv_to ev - rv_from ev)).
#[global] Instance reads_since_dec t ev : Decision (reads_since t ev) := _.
(** A call that looks at the cache: Flush, FlushAll, or an accepted report of at least one operation. *)
Definition looks (ev : report_event) : Prop :=
  match rv_call ev with RReport q => rres_status (rv_result ev) = SOk /\ rr_operations q <> [] | _ => True end.
End spec.
