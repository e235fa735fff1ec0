(** What a user of the client sees: vocabulary over the trace of observable events (Client.v). *)
From Verif Require Import Base Proto Lru Timeout Agg CheckAgg CheckAggSpec QuotaAgg QuotaAggSpec ReportAgg ReportAggSpec Client.
From stdpp Require Import gmap list.
Local Open Scope Z_scope.
Set Implicit Arguments.

(** The calls the user made, and those whose on_done has been called, in order. *)
Definition started (tr : list event) : list nat := tr ≫= fun ev => match ev with EStart _ c _ => [c] | _ => [] end.
Definition done (tr : list event) : list nat := tr ≫= fun ev => match ev with EDone _ c _ _ => [c] | _ => [] end.
(** The transport calls that were made, and those that were completed. *)
Definition sent (tr : list event) : list nat := tr ≫= fun ev => match ev with ETransport _ i _ _ => [i] | _ => [] end.
Definition answered (tr : list event) : list nat := tr ≫= fun ev => match ev with ECompleted _ i _ _ _ => [i] | _ => [] end.
(** No thread is inside code of the client. *)
Definition nothing_running (ths : list (list instr)) : Prop := Forall (Forall (fun i => i = IUser)) ths.

(** The events that concern one call of the user: it was made, the aggregator was asked, the transport was called, it is done. *)
Definition concerns (c : nat) (ev : event) : bool :=
  match ev with
  | EStart _ c' _ | EDone _ c' _ _ | EAgg _ _ _ (Some c') | ETransport _ _ (FromCall c') _ => Nat.eqb c' c
  | _ => false
  end.
Definition story (c : nat) (tr : list event) : list event := tr ≫= fun ev => if concerns c ev then [ev] else [].

(** The transport calls made for call [c], and the numbers of the calls of the aggregator [k], in order. *)
Definition forwards (c : nat) (tr : list event) : list event :=
  tr ≫= fun ev => match ev with ETransport _ _ (FromCall c') _ => if Nat.eqb c' c then [ev] else [] | _ => [] end.
Definition agg_numbers (k : kind) (tr : list event) : list nat :=
  tr ≫= fun ev => match ev with EAgg _ k' n _ => if decide (k' = k) then [n] else [] | _ => [] end.

(** The call that the user's completion belongs to. *)
Definition call_in (f : completion) : list nat := match f with CheckDone c _ | QuotaDone c _ | ReportDone c => [c] | _ => [] end.

(** The call that an instruction will complete. *)
Definition tok (i : instr) : list nat :=
  match i with
  | IGate c _ | IAgg _ (Some (c, _)) | IBody _ (Some (c, _)) | IAfter c _ _ _ | IDone c _ _ => [c]
  | ITransport _ _ f | ICompleted _ f _ _ => call_in f
  | _ => []
  end.

Section spec.
Variable cf : client_config.
(** How call [c] gets the status [s] and the response [r]: without a transport, from the aggregator, or from the server. *)
Inductive settled (w : world) (c : nat) (a : api) : status_code -> reply -> list event -> Prop :=
| settled_null t : has_transport cf a = false -> settled w c a SInvalidArgument RpNone [EStart t c a]
| settled_cache t n r : has_transport cf a = true ->
    calls (kind_of (ap_request a)) (w_aggs w) !! n = Some (agg_call_of (ap_request a), r) -> rs_status r <> SNotFound ->
    settled w c a (rs_status r) (rs_reply r) [EStart t c a; EAgg t (kind_of (ap_request a)) n (Some c)]
| settled_server t t' n r i s rp b : has_transport cf a = true ->
    calls (kind_of (ap_request a)) (w_aggs w) !! n = Some (agg_call_of (ap_request a), r) -> rs_status r = SNotFound ->
    ECompleted t' i s rp b ∈ w_trace w ->
    settled w c a s rp [EStart t c a; EAgg t (kind_of (ap_request a)) n (Some c); ETransport t i (FromCall c) (ap_request a)].

(** How far call [c] has got: the events that concern it. *)
Inductive progress (w : world) (c : nat) (a : api) : list event -> Prop :=
| progress_start t : progress w c a [EStart t c a]
| progress_asked t n r : has_transport cf a = true ->
    calls (kind_of (ap_request a)) (w_aggs w) !! n = Some (agg_call_of (ap_request a), r) ->
    progress w c a [EStart t c a; EAgg t (kind_of (ap_request a)) n (Some c)]
| progress_sent t n r i : has_transport cf a = true ->
    calls (kind_of (ap_request a)) (w_aggs w) !! n = Some (agg_call_of (ap_request a), r) -> rs_status r = SNotFound ->
    progress w c a [EStart t c a; EAgg t (kind_of (ap_request a)) n (Some c); ETransport t i (FromCall c) (ap_request a)]
| progress_done t s r l : settled w c a s r l -> progress w c a (l ++ [EDone t c s r]).
End spec.

(** Why an aggregator was called: for the user's request, for a completed transport call, by the timer or by the destructor. *)
Definition justified (call : agg_call) (tr : list event) : Prop :=
  match call with
  | OnCheck (CCheck q) => exists t c a, EStart t c a ∈ tr /\ ap_request a = RqCheck q
  | OnQuota (QQuota q) => exists t c a, EStart t c a ∈ tr /\ ap_request a = RqQuota q
  | OnReport (RReport q) => exists t c a, EStart t c a ∈ tr /\ ap_request a = RqReport q
  | OnCheck (CCacheResponse q r) =>
      exists t i c t' rp b, ETransport t i (FromCall c) (RqCheck q) ∈ tr /\ ECompleted t' i SOk rp b ∈ tr /\ r = check_reply rp
  | OnQuota (QResponse q r) =>
      exists t i o t' s rp b, ETransport t i o (RqQuota q) ∈ tr /\ ECompleted t' i s rp b ∈ tr /\
        ((s = SOk /\ r = quota_reply rp) \/ (s <> SOk /\ r = empty_quota_response))
  | OnCheck CFlush | OnQuota QFlushC | OnReport RFlush => exists t, ETick t ∈ tr
  | OnCheck CFlushAll | OnQuota QFlushAllC | OnReport RFlushAll => exists t, EDestroy t ∈ tr
  end.

(** The call that records the answer of the server to the user's request. *)
Definition recording (q : request) (s : status_code) (r : reply) : option agg_call :=
  match q with
  | RqCheck q => if status_eqb s SOk then Some (OnCheck (CCacheResponse q (check_reply r))) else None
  | RqQuota q => Some (OnQuota (QResponse q (if status_eqb s SOk then quota_reply r else empty_quota_response)))
  | RqReport _ => None
  end.

(** What happened for call number [n] of the aggregator [k]: the items that were given to the callback or dropped
    because there was none, and the return, each with its thread. *)
Inductive flushing := Gave (q : request) | Dropped (q : request) | Returned.
Definition handled (k : kind) (n : nat) (tr : list event) : list (nat * flushing) :=
  tr ≫= fun ev =>
    match ev with
    | ECallback t k' n' q => if bool_decide (k' = k /\ n' = n) then [(t, Gave q)] else []
    | EDropped t k' n' q => if bool_decide (k' = k /\ n' = n) then [(t, Dropped q)] else []
    | EAggReturn t k' n' => if bool_decide (k' = k /\ n' = n) then [(t, Returned)] else []
    | _ => []
    end.
(** The item, whatever happened to it. *)
Definition item_of (f : flushing) : option request := match f with Gave q | Dropped q => Some q | Returned => None end.

(** The values that the statistics should have. *)
Definition calls_made (k : kind) (tr : list event) : Z :=
  Z.of_nat (length (tr ≫= fun ev => match ev with EStart _ c a => if decide (kind_of (ap_request a) = k) then [c] else [] | _ => [] end)).
Definition sent_for_calls (k : kind) (tr : list event) : list request :=
  tr ≫= fun ev => match ev with ETransport _ _ (FromCall _) q => if decide (kind_of q = k) then [q] else [] | _ => [] end.
Definition sent_by_flush (k : kind) (tr : list event) : list request :=
  tr ≫= fun ev => match ev with ETransport _ _ (FromFlush k' _) q => if decide (k' = k) then [q] else [] | _ => [] end.
Definition sent_of (k : kind) (tr : list event) : list request :=
  tr ≫= fun ev => match ev with ETransport _ _ _ q => if decide (kind_of q = k) then [q] else [] | _ => [] end.
(** The operations in the reports that were sent. *)
Definition report_operations (qs : list request) : list operation := qs ≫= fun q => match q with RqReport q => rr_operations q | _ => [] end.

(** The items that were given to the flush callback, those that were not because there was none any more, and those that the calls of the aggregator removed. *)
Definition given (k : kind) (tr : list event) : list request :=
  tr ≫= fun ev => match ev with ECallback _ k' _ q => if decide (k' = k) then [q] else [] | _ => [] end.
Definition dropped (k : kind) (tr : list event) : list request :=
  tr ≫= fun ev => match ev with EDropped _ k' _ q => if decide (k' = k) then [q] else [] | _ => [] end.
Definition removed_items (k : kind) (a : aggs) : list request := calls k a ≫= fun x => rs_flushed x.2.

Section live.
Variable debug : bool.
Variable ord : hash_order.
Variable md5 : string -> string.
Variable clk : kind -> nat -> Z.
Variable cf : client_config.
(** A thread that can go on, perhaps after others have: it can execute its next instruction, or it waits for a mutex
    whose owner can go on, or for a call that the server has yet to answer or a thread that can go on will complete.
    A thread in a deadlock is not live, because the definition is inductive. *)
Inductive live (ths : list (list instr)) (w : world) : nat -> Prop :=
| live_runs t ch s : step debug ord md5 clk cf t ch (ths, w) = Some s -> live ths w t
| live_cache t call u rest t' : ths !! t = Some (IAgg call u :: rest) -> w_cache w (call_kind call) = Some t' -> live ths w t' -> live ths w t
| live_flush t k n q rest t' : ths !! t = Some (IFlush k n q :: rest) -> w_callback w k = Some t' -> live ths w t' -> live ths w t
| live_disconnect t k rest t' : ths !! t = Some (IDisconnect k :: rest) -> w_callback w k = Some t' -> live ths w t' -> live ths w t
| live_server t c rest p : ths !! t = Some (IWait c :: rest) -> p ∈ w_pending w -> c ∈ call_in p.2 -> live ths w t
| live_wait t c rest t' st i : ths !! t = Some (IWait c :: rest) -> ths !! t' = Some st -> i ∈ st -> c ∈ tok i -> live ths w t' -> live ths w t.
(** The states that can follow a state. *)
Inductive later (s : list (list instr) * world) : list (list instr) * world -> Prop :=
| later_now : later s s
| later_step s' t ch s'' : later s s' -> step debug ord md5 clk cf t ch s' = Some s'' -> later s s''.
(** Every aggregator call that is being executed returns. *)
Definition bodies_return (ths : list (list instr)) (w : world) : Prop :=
  forall t call u rest, ths !! t = Some (IBody call u :: rest) -> exists fuel a r, agg_step debug ord md5 clk cf fuel call (w_aggs w) = Ok (a, r).
End live.
(** The quota transport completed a flushed request before it returned. *)
Definition quota_flush_in_place (tr : list event) : Prop :=
  exists t i n q t' s r, ETransport t i (FromFlush KQuota n) q ∈ tr /\ ECompleted t' i s r true ∈ tr.

#[global] Arguments story : simpl never.
#[global] Arguments started : simpl never.
#[global] Arguments done : simpl never.
#[global] Arguments sent : simpl never.
#[global] Arguments answered : simpl never.
#[global] Arguments forwards : simpl never.
#[global] Arguments agg_numbers : simpl never.
#[global] Arguments handled : simpl never.
#[global] Arguments given : simpl never.
#[global] Arguments dropped : simpl never.
#[global] Arguments removed_items : simpl never.
#[global] Arguments sent_by_flush : simpl never.
#[global] Arguments sent_for_calls : simpl never.
#[global] Arguments sent_of : simpl never.
