(** C54-C58, C69-C71: the client.  The vocabulary is in ClientSpec.v; the observable events are in Client.v.  A state is
    a list of threads and a world: [reach] are the states from construction on, under every schedule, and
    [w_trace] is the list of the events so far.  [calls k] are the calls that the aggregator [k] has finished, with their results. *)
From Verif Require Import Base Proto Signature OpAgg Lru LruSpec Timeout TimeoutProofs Agg CheckAgg CheckAggSpec QuotaAgg QuotaAggSpec ReportAgg ReportAggSpec.
From Verif Require Import Client ClientSpec ClientFlush ClientFacts ClientCache ClientClaims PropsCheck PropsQuota PropsReport ClientRun.
From stdpp Require Import gmap list.
Local Open Scope Z_scope.

(** ** Concrete runs, for the examples *)
Definition cl_clk : kind -> nat -> Z := fun _ => table_clock [0].
Notation cl_reach := (reach true default_order ck_md5 cl_clk cl_cf).
Notation cl_step := (step true default_order ck_md5 cl_clk cl_cf).
Notation cl_after := (after cl_clk cl_cf).
(** The thread runs until it is in the user's code again, and leaves the user's callback. *)
Definition cl_fin : list act := [Run 0 100; Do 0 Leave; Run 0 100].
(** Thread 0 checks "a", which goes to the server; the server answers; "a" is checked again; a report and a quota
    request follow; the server answers the flushed quota request. *)
Definition cl_first : list act := [Do 0 Go; Do 0 (Call (cl_check "1" "a")); Run 0 100].
Definition cl_answered : list act := cl_first ++ [Do 0 (Complete 0 SOk (RpCheck (ck_pos "r")))] ++ cl_fin.
Definition cl_again : list act := cl_answered ++ [Do 0 (Call (cl_check "2" "a"))] ++ cl_fin.
Definition cl_all : list act :=
  cl_again ++ [Do 0 (Call (cl_report [rp_op "1" "a" 1]))] ++ cl_fin ++ [Do 0 (Call (cl_quota "1" "a" 1))] ++ cl_fin ++
  [Do 0 (Complete 0 SOk (RpQuota qk_ok)); Run 0 100].

(** ** C54 *)
(** At any time the items that call number [n] removed have been handed out in order, each once, by the thread of the
    call; the return comes after all of them. *)
Theorem C54_delivered_in_order : forall debug ord md5 clk cf ths w k n call r,
  reach debug ord md5 clk cf (ths, w) -> w_crash w = None -> calls k (w_aggs w) !! n = Some (call, r) ->
  exists t u gs rest, EAgg t k n u ∈ w_trace w /\ handled k n (w_trace w) = pair t <$> gs /\ (item_of <$> gs) ++ rest = (Some <$> rs_flushed r) ++ [None].
Proof. intros *. apply delivered_so_far. Qed.
Print Assumptions C54_delivered_in_order.
(** A call that has returned has given each of its items to the flush callback, unless the callback has been removed. *)
Theorem C54_delivered_before_return : forall debug ord md5 clk cf ths w t k n,
  reach debug ord md5 clk cf (ths, w) -> w_crash w = None -> EAggReturn t k n ∈ w_trace w ->
  exists call r, calls k (w_aggs w) !! n = Some (call, r) /\
    ((forall t', EDisconnect t' k ∉ w_trace w) -> handled k n (w_trace w) = ((fun q => (t, Gave q)) <$> rs_flushed r) ++ [(t, Returned)]).
Proof. intros *. apply returned_given. Qed.
Print Assumptions C54_delivered_before_return.
(** What [handled] lists: exactly these events, in the order of the trace. *)
Theorem C54_handled_events : forall k n tr t x, (t, x) ∈ handled k n tr <->
  match x with Gave q => ECallback t k n q ∈ tr | Dropped q => EDropped t k n q ∈ tr | Returned => EAggReturn t k n ∈ tr end.
Proof. exact handled_elem. Qed.
Print Assumptions C54_handled_events.
(** Items are handed out after the work of the call, by its thread. *)
Theorem C54_after_the_body : forall debug ord md5 clk cf ths w l1 ev l2 t k n, reach debug ord md5 clk cf (ths, w) -> w_trace w = l1 ++ ev :: l2 ->
  (exists q, ev = ECallback t k n q) \/ (exists q, ev = EDropped t k n q) \/ ev = EAggReturn t k n -> exists u, EAgg t k n u ∈ l1.
Proof. intros *. apply after_body. Qed.
Print Assumptions C54_after_the_body.
(** The flush callback runs outside every cache lock. *)
Theorem C54_outside_cache_lock : forall debug ord md5 clk cf t ch ths w ths' w' t' k n q k',
  reach debug ord md5 clk cf (ths, w) -> step debug ord md5 clk cf t ch (ths, w) = Some (ths', w') -> w_trace w' = w_trace w ++ [ECallback t' k n q] ->
  t' = t /\ w_cache w k' <> Some t.
Proof.
  intros * R E H. split; [eapply callback_step; [exact E|exact H]|]. by eapply callback_unlocked.
Qed.
Print Assumptions C54_outside_cache_lock.
(** Items are dropped only after the destructor has removed the callback. *)
Theorem C54_dropped_after_removal : forall debug ord md5 clk cf ths w k n t q,
  reach debug ord md5 clk cf (ths, w) -> (t, Dropped q) ∈ handled k n (w_trace w) -> exists t', EDisconnect t' k ∈ w_trace w.
Proof. intros *. apply not_dropped. Qed.
Print Assumptions C54_dropped_after_removal.
Definition cl_all_s := cl_after cl_all.
Example C54_example : cl_reach (cl_all_s.1, cl_all_s.2) /\ w_crash cl_all_s.2 = None /\ EAggReturn 0 KQuota 0 ∈ w_trace cl_all_s.2 /\
  (exists q, handled KQuota 0 (w_trace cl_all_s.2) = [(0%nat, Gave q); (0%nat, Returned)]) /\
  brief <$> w_trace cl_all_s.2 =
    [("start", 0); ("check", 0); ("agg_return", 0); ("send", 0); ("return", 0);
     ("completed", 0); ("check", 1); ("agg_return", 1); ("done", 0);
     ("start", 1); ("check", 2); ("agg_return", 2); ("done", 1); ("return", 1);
     ("start", 2); ("report", 0); ("agg_return", 0); ("done", 2); ("return", 2);
     ("start", 3); ("quota", 0); ("callback", 0); ("send", 1); ("agg_return", 0); ("done", 3); ("return", 3);
     ("completed", 1); ("quota", 1); ("agg_return", 1)]%string%nat.
Proof.
  split; [cl_reaches|]. split; [vm_compute; reflexivity|]. split.
  { apply (handled_elem KQuota 0 _ 0 Returned). assert (exists q, handled KQuota 0 (w_trace cl_all_s.2) = [(0%nat, Gave q); (0%nat, Returned)]) as (q & ->) by (eexists; vm_compute; reflexivity).
    right. left. }
  split; [eexists; vm_compute; reflexivity|vm_compute; reflexivity].
Qed.

(** ** C55 *)
(** No call is completed twice, and only calls that were made are completed. *)
Theorem C55_at_most_once : forall debug ord md5 clk cf ths w, reach debug ord md5 clk cf (ths, w) ->
  NoDup (done (w_trace w)) /\ forall c, c ∈ done (w_trace w) -> c ∈ started (w_trace w).
Proof. intros *. apply once. Qed.
Print Assumptions C55_at_most_once.
(** Every call is completed exactly once when nothing is running and the transport has answered all it was given. *)
Theorem C55_exactly_once : forall debug ord md5 clk cf ths w, reach debug ord md5 clk cf (ths, w) -> w_crash w = None -> nothing_running ths ->
  (forall m, m ∈ sent (w_trace w) -> m ∈ answered (w_trace w)) ->
  NoDup (started (w_trace w)) /\ done (w_trace w) ≡ₚ started (w_trace w).
Proof. intros *. apply exactly_once. Qed.
Print Assumptions C55_exactly_once.
(** A call that returns has been completed before, unless it went to the server; a blocking call always has been. *)
Theorem C55_before_return : forall debug ord md5 clk cf ths w l1 t c l2, reach debug ord md5 clk cf (ths, w) -> w_trace w = l1 ++ EReturn t c :: l2 ->
  exists t' a, EStart t' c a ∈ l1 /\ (ap_blocking a = true -> c ∈ done l1) /\ (c ∈ done l1 \/ exists t' m q, ETransport t' m (FromCall c) q ∈ l1).
Proof. intros *. apply at_return. Qed.
Print Assumptions C55_before_return.
(** What the done callback is given: [settled] says where it comes from. *)
Theorem C55_right_answer : forall debug ord md5 clk cf ths w t c s r, reach debug ord md5 clk cf (ths, w) -> EDone t c s r ∈ w_trace w ->
  exists a l, settled cf w c a s r l /\ story c (w_trace w) = l ++ [EDone t c s r].
Proof. intros *. apply answer. Qed.
Print Assumptions C55_right_answer.
(** The second call blocks; the server's answer comes on another thread. *)
Definition cl_blocking : list act :=
  [Do 0 Go; Do 1 Go; Do 0 (Call (Api (RqCheck (ck_req "1" "a")) None true)); Run 0 100; Do 1 (Complete 0 (SOther 14) RpNone); Run 1 100; Do 1 Leave; Run 0 100].
Example C55_example : cl_reach (cl_all_s.1, cl_all_s.2) /\ nothing_running cl_all_s.1 /\ done (w_trace cl_all_s.2) = [0; 1; 2; 3]%nat /\
  sent (w_trace cl_all_s.2) = [0; 1]%nat /\ answered (w_trace cl_all_s.2) = [0; 1]%nat /\
  cl_reach ((cl_after cl_blocking).1, (cl_after cl_blocking).2) /\
  brief <$> w_trace (cl_after cl_blocking).2 = [("start", 0); ("check", 0); ("agg_return", 0); ("send", 0); ("completed", 0); ("done", 0); ("return", 0)]%string%nat.
Proof.
  split; [cl_reaches|]. split. { assert (cl_all_s.1 = [[IUser]]) as -> by (vm_compute; reflexivity). repeat constructor. }
  split; [vm_compute; reflexivity|]. split; [vm_compute; reflexivity|]. split; [vm_compute; reflexivity|]. split; [cl_reaches|vm_compute; reflexivity].
Qed.

(** ** C56 *)
Theorem C56_statistics_exact : forall debug ord md5 clk cf ths w, reach debug ord md5 clk cf (ths, w) -> w_crash w = None -> nothing_running ths ->
  let tr := w_trace w in
  GetStatistics w = Statistics
    (KindStatistics (calls_made KCheck tr) (Z.of_nat (length (sent_by_flush KCheck tr))) (Z.of_nat (length (sent_for_calls KCheck tr))))
    (KindStatistics (calls_made KQuota tr) (Z.of_nat (length (sent_by_flush KQuota tr))) (Z.of_nat (length (sent_for_calls KQuota tr))))
    (KindStatistics (calls_made KReport tr) (Z.of_nat (length (sent_by_flush KReport tr))) (Z.of_nat (length (sent_for_calls KReport tr))))
    (Z.of_nat (length (report_operations (sent_for_calls KReport tr ++ sent_by_flush KReport tr)))).
Proof. intros *. apply statistics_exact. Qed.
Print Assumptions C56_statistics_exact.
(** Each transport request of a kind is counted once. *)
Theorem C56_all_requests : forall debug ord md5 clk cf ths w k, reach debug ord md5 clk cf (ths, w) ->
  (length (sent_for_calls k (w_trace w)) + length (sent_by_flush k (w_trace w)) = length (sent_of k (w_trace w)))%nat.
Proof. intros *. apply sent_total. Qed.
Print Assumptions C56_all_requests.
Definition cl_destroyed : list act := cl_all ++ [Do 0 Destroy; Run 0 100].
Example C56_example : cl_reach ((cl_after cl_destroyed).1, (cl_after cl_destroyed).2) /\ nothing_running (cl_after cl_destroyed).1 /\ w_crash (cl_after cl_destroyed).2 = None /\
  GetStatistics (cl_after cl_destroyed).2 = Statistics (KindStatistics 2 1 1) (KindStatistics 1 1 0) (KindStatistics 1 1 0) 1.
Proof.
  split; [cl_reaches|]. split. { assert ((cl_after cl_destroyed).1 = [[IUser]]) as -> by (vm_compute; reflexivity). repeat constructor. }
  split; vm_compute; reflexivity.
Qed.

(** ** C57 *)
(** A call that has returned asked the aggregator, and was sent to the server, as it is, if and only if that said NOT_FOUND;
    else the user got the aggregator's answer. *)
Theorem C57_forwarded_iff_not_found : forall debug ord md5 clk cf ths w t t' c a,
  reach debug ord md5 clk cf (ths, w) -> w_crash w = None -> EStart t c a ∈ w_trace w -> EReturn t' c ∈ w_trace w -> has_transport cf a = true ->
  exists n r, EAgg t (kind_of (ap_request a)) n (Some c) ∈ w_trace w /\ calls (kind_of (ap_request a)) (w_aggs w) !! n = Some (agg_call_of (ap_request a), r) /\
    if status_eqb (rs_status r) SNotFound then exists m, forwards c (w_trace w) = [ETransport t m (FromCall c) (ap_request a)]
    else forwards c (w_trace w) = [] /\ exists t'', EDone t'' c (rs_status r) (rs_reply r) ∈ w_trace w.
Proof. intros *. apply call_forwarded. Qed.
Print Assumptions C57_forwarded_iff_not_found.
(** Without a transport the call is answered at once, and that is all that happens for it. *)
Theorem C57_no_transport : forall debug ord md5 clk cf ths w t t' c a,
  reach debug ord md5 clk cf (ths, w) -> w_crash w = None -> EStart t c a ∈ w_trace w -> EReturn t' c ∈ w_trace w -> has_transport cf a = false ->
  exists t'', story c (w_trace w) = [EStart t c a; EDone t'' c SInvalidArgument RpNone].
Proof. intros *. apply call_null. Qed.
Print Assumptions C57_no_transport.
(** Every request that an aggregator was given is that of a call with a transport. *)
Theorem C57_only_with_transport : forall debug ord md5 clk cf ths w k n q r,
  reach debug ord md5 clk cf (ths, w) -> calls k (w_aggs w) !! n = Some (agg_call_of q, r) ->
  exists t c a, EStart t c a ∈ w_trace w /\ EAgg t k n (Some c) ∈ w_trace w /\ ap_request a = q /\ has_transport cf a = true.
Proof. intros *. apply asked_once. Qed.
Print Assumptions C57_only_with_transport.
Definition cl_null : list act := [Do 0 Go; Do 0 (Call (Api (RqCheck (ck_req "1" "a")) (Some false) false))] ++ cl_fin.
Example C57_example :
  (exists a, EStart 0 0 a ∈ w_trace cl_all_s.2 /\ EReturn 0 0 ∈ w_trace cl_all_s.2 /\ has_transport cl_cf a = true /\ forwards 0 (w_trace cl_all_s.2) = [ETransport 0 0 (FromCall 0) (ap_request a)]) /\
  (exists a, EStart 0 1 a ∈ w_trace cl_all_s.2 /\ EReturn 0 1 ∈ w_trace cl_all_s.2 /\ has_transport cl_cf a = true /\ forwards 1 (w_trace cl_all_s.2) = []) /\
  cl_reach ((cl_after cl_null).1, (cl_after cl_null).2) /\
  exists a, has_transport cl_cf a = false /\ w_trace (cl_after cl_null).2 = [EStart 0 0 a; EDone 0 0 SInvalidArgument RpNone; EReturn 0 0].
Proof.
  split. { exists (cl_check "1" "a"). split; [apply elem_of_list_lookup; exists 0%nat; vm_compute; reflexivity|]. split; [apply elem_of_list_lookup; exists 4%nat; vm_compute; reflexivity|]. split; vm_compute; reflexivity. }
  split. { exists (cl_check "2" "a"). split; [apply elem_of_list_lookup; exists 9%nat; vm_compute; reflexivity|]. split; [apply elem_of_list_lookup; exists 13%nat; vm_compute; reflexivity|]. split; vm_compute; reflexivity. }
  split; [cl_reaches|]. eexists. split; [|vm_compute; reflexivity]. reflexivity.
Qed.

(** ** C58 *)
(** A check response that was given to the cache is the response of a transport call for that request that ended with OK. *)
Theorem C58_check_cached_only_ok : forall debug ord md5 clk cf ths w n q rp r,
  reach debug ord md5 clk cf (ths, w) -> calls KCheck (w_aggs w) !! n = Some (OnCheck (CCacheResponse q rp), r) ->
  exists t m c t' rp' b, ETransport t m (FromCall c) (RqCheck q) ∈ w_trace w /\ ECompleted t' m SOk rp' b ∈ w_trace w /\ rp = check_reply rp'.
Proof. intros *. apply check_justified. Qed.
Print Assumptions C58_check_cached_only_ok.
(** A quota response that was given to the cache is that of a transport call for that request, or empty if that failed. *)
Theorem C58_quota_failure_is_empty : forall debug ord md5 clk cf ths w n q rp r,
  reach debug ord md5 clk cf (ths, w) -> calls KQuota (w_aggs w) !! n = Some (OnQuota (QResponse q rp), r) ->
  exists t m o t' s rp' b, ETransport t m o (RqQuota q) ∈ w_trace w /\ ECompleted t' m s rp' b ∈ w_trace w /\
    ((s = SOk /\ rp = quota_reply rp') \/ (s <> SOk /\ rp = empty_quota_response)).
Proof. intros *. apply quota_justified. Qed.
Print Assumptions C58_quota_failure_is_empty.
(** The check fails and is not cached; the quota request fails and the empty response is recorded, though the transport supplied another. *)
Definition cl_failing : list act :=
  cl_first ++ [Do 0 (Complete 0 (SOther 14) (RpCheck (ck_neg "r")))] ++ cl_fin ++ [Do 0 (Call (cl_quota "1" "a" 1))] ++ cl_fin ++
  [Do 0 (Complete 0 (SOther 14) (RpQuota qk_no)); Run 0 100].
Example C58_example : cl_reach ((cl_after cl_failing).1, (cl_after cl_failing).2) /\
  fst <$> calls KCheck (w_aggs (cl_after cl_failing).2) = [OnCheck (CCheck (ck_req "1" "a"))] /\
  (exists q, fst <$> calls KQuota (w_aggs (cl_after cl_failing).2) = [OnQuota (QQuota (qk_req "1" "a" 1)); OnQuota (QResponse q empty_quota_response)]) /\
  fst <$> calls KCheck (w_aggs cl_all_s.2) = [OnCheck (CCheck (ck_req "1" "a")); OnCheck (CCacheResponse (ck_req "1" "a") (ck_pos "r")); OnCheck (CCheck (ck_req "2" "a"))].
Proof.
  split; [cl_reaches|]. split; [vm_compute; reflexivity|]. split; [eexists; vm_compute; reflexivity|vm_compute; reflexivity].
Qed.
