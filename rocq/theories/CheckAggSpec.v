(** What a user of the check aggregator sees: calls, their results, and histories of them. *)
From Verif Require Import Proto Signature OpAgg OpAggSpec Lru LruSpec Timeout Agg CheckAgg.
From stdpp Require Import list.
Local Open Scope Z_scope.

(** The calls of the interface. *)
Inductive check_call :=
| CCheck (request : check_request)
| CCacheResponse (request : check_request) (response : check_response)
| CFlush
| CFlushAll.

(** A finished call: its result, the range of clock readings made during it, and the aggregator after it. *)
Record check_event := CheckEvent {
  cv_call : check_call; cv_result : check_result; cv_from : nat; cv_to : nat; cv_after : check_agg }.

Section spec.
Variable ord : hash_order.
Variable md5 : string -> string.
Variable clk : nat -> Z.
Variable cf : check_config.

Definition cstep (call : check_call) (st : check_agg) : outcome (check_agg * check_result) :=
  match call with
  | CCheck q => Check ord md5 clk cf q st
  | CCacheResponse q r => CacheResponse ord md5 clk cf q r st
  | CFlush => Flush ord clk cf st
  | CFlushAll => FlushAll ord cf st
  end.
(** How often the clock has been read. *)
Definition readings (st : check_agg) : nat := match ca_cache st with Some c => l_tick c | None => 0%nat end.

(** The states and histories of an aggregator from its construction on. *)
Inductive creach : check_agg -> list check_event -> Prop :=
| creach_new st : NewCheckAggregator ord clk cf = Ok st -> creach st []
| creach_step st h call st' res :
    creach st h -> cstep call st = Ok (st', res) ->
    creach st' (h ++ [CheckEvent call res (readings st) (readings st') st']).

(** The signature is among the cached ones. *)
Definition cached (st : check_agg) (sig : string) : Prop :=
  exists c, ca_cache st = Some c /\ is_Some (l_table c !! sig).

Definition sig_of (q : check_request) : string := GenerateCheckRequestSignature ord md5 q.
(** A check that may be answered from the cache: right service, an operation of LOW importance. *)
Definition eligible (q : check_request) : bool :=
  String.eqb (cr_service q) (cc_service cf) &&
  match cr_operation q with None => false | Some o => op_importance o =? LOW end.
(** [ev] is an eligible check of signature [sig] that was told [status]. *)
Definition asked (sig : string) (status : status_code) (ev : check_event) : Prop :=
  exists q, cv_call ev = CCheck q /\ eligible q = true /\ sig_of q = sig /\ cres_status (cv_result ev) = status.
(** [ev] stores an answer for [sig]. *)
Definition stores (sig : string) (response : check_response) (ev : check_event) : Prop :=
  exists q, cv_call ev = CCacheResponse q response /\ sig_of q = sig.
(** [ev] begins or completes a round trip to the server for [sig]: the check was told NOT_FOUND, or an answer was stored. *)
Definition refreshes (sig : string) (ev : check_event) : Prop :=
  asked sig SNotFound ev \/ exists response, stores sig response ev.
(** The call has to do with [sig]. *)
Definition mentions (sig : string) (ev : check_event) : Prop :=
  (exists status, asked sig status ev) \/ exists response, stores sig response ev.

(** The most recent event of a history with a property. *)
Definition most_recent (P : check_event -> Prop) (h : list check_event) (ev : check_event) : Prop :=
  exists h1 h2, h = h1 ++ ev :: h2 /\ P ev /\ Forall (fun e => ~ P e) h2.
(** A reading of the clock made during an event. *)
Definition during (t : Z) (ev : check_event) : Prop :=
  exists i, (cv_from ev <= i < cv_to ev)%nat /\ t = clk i.

(** The answer carries no check errors. *)
Definition positive (r : check_response) : Prop := cs_errors r = [].

(** ** Accounting *)
(** The operations of the checks that were answered from the cache by a positive response, in order. *)
Definition answered_op (ev : check_event) : list operation :=
  match cv_call ev, cres_status (cv_result ev), cres_response (cv_result ev) with
  | CCheck q, SOk, Some r => match cs_errors r with [] => [op_get (cr_operation q)] | _ => [] end
  | _, _, _ => []
  end.
Definition answered (h : list check_event) : list operation := h ≫= answered_op.
(** The operations of eligible checks that were told NOT_FOUND: their callers send them to the server. *)
Definition sent_op (ev : check_event) : list operation :=
  match cv_call ev, cres_status (cv_result ev) with
  | CCheck q, SNotFound => if eligible q then [op_get (cr_operation q)] else []
  | _, _ => []
  end.
Definition sent_by_callers (h : list check_event) : list operation := h ≫= sent_op.
(** All check operations, in order. *)
Definition check_op (ev : check_event) : list operation :=
  match cv_call ev with CCheck q => [op_get (cr_operation q)] | _ => [] end.
Definition all_checked (h : list check_event) : list operation := h ≫= check_op.
(** Everything given to the flush callback, in order. *)
Definition flushed (h : list check_event) : list check_request := h ≫= fun ev => cres_flushed (cv_result ev).

(** [q] is the request that reports the operations [ops], merged in this order. *)
Definition reports (ops : list operation) (q : check_request) : Prop :=
  exists first rest o, ops = first :: rest /\ aggregate ord md5 (cc_kinds cf) first rest = Ok o /\
    q = CheckRequest (cc_service cf) (Some o) (cc_config_id cf) "".
(** The signature a check of operation [o] has. *)
Definition op_sig (o : operation) : string := sig_of (CheckRequest "" (Some o) "" "").
End spec.
