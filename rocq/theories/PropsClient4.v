(** C90: where the answers come from that the callers of the client are given.  [l1] are the events before the answer. *)
From Verif Require Import Base Proto Signature OpAgg Lru LruSpec Timeout TimeoutProofs Agg CheckAgg CheckAggSpec QuotaAgg QuotaAggSpec ReportAgg ReportAggSpec.
From Verif Require Import Client ClientSpec ClientAnswers PropsCheck PropsQuota PropsReport ClientRun PropsClient PropsClient3.
From stdpp Require Import gmap list.
Local Open Scope Z_scope.

(** A caller of Check who is told OK is told what the server answered: to the call's own request, or - if the request is
    one that may be answered from the cache - to an earlier check request with the same signature. *)
Theorem C90_check_from_server : forall debug ord md5 clk cf ths w l1 t c r l2 t0 a q, proper_clock (clk KCheck) ->
  reach debug ord md5 clk cf (ths, w) -> w_trace w = l1 ++ EDone t c SOk r :: l2 -> EStart t0 c a ∈ l1 -> ap_request a = RqCheck q ->
  (exists t1 m t2 b, ETransport t1 m (FromCall c) (RqCheck q) ∈ l1 /\ ECompleted t2 m SOk r b ∈ l1) \/
  (eligible (cf_checks cf) q = true /\ exists t1 m c' q' t2 rp b, ETransport t1 m (FromCall c') (RqCheck q') ∈ l1 /\ ECompleted t2 m SOk rp b ∈ l1 /\
     sig_of ord md5 q' = sig_of ord md5 q /\ r = RpCheck (check_reply rp)).
Proof. intros *. apply check_told. Qed.
Print Assumptions C90_check_from_server.
(** A caller of Quota who is told OK is told what the server answered to the call's own request or to an earlier
    request - of a call or of a flush - with the same signature, or is given the empty answer. *)
Theorem C90_quota_from_server : forall debug ord md5 clk cf ths w l1 t c r l2 t0 a q, proper_clock (clk KQuota) ->
  reach debug ord md5 clk cf (ths, w) -> w_trace w = l1 ++ EDone t c SOk r :: l2 -> EStart t0 c a ∈ l1 -> ap_request a = RqQuota q ->
  (exists t1 m t2 b, ETransport t1 m (FromCall c) (RqQuota q) ∈ l1 /\ ECompleted t2 m SOk r b ∈ l1) \/
  (well_addressed (cf_quotas cf) q /\ (r = RpQuota empty_quota_response \/
   exists t1 m o q' t2 rp b, ETransport t1 m o (RqQuota q') ∈ l1 /\ ECompleted t2 m SOk rp b ∈ l1 /\
     qsig md5 q' = qsig md5 q /\ r = RpQuota (quota_reply rp))).
Proof. intros *. apply quota_told_client. Qed.
Print Assumptions C90_quota_from_server.
(** When nothing was sent for the call, the answer is the latest one recorded for that signature before the call asked
    the cache: call number [n'] of the aggregator recorded it, number [n] is the question, and no call between them recorded
    an answer for that signature. *)
Theorem C90_check_latest : forall debug ord md5 clk cf ths w t c r t0 a q, proper_clock (clk KCheck) ->
  reach debug ord md5 clk cf (ths, w) -> EDone t c SOk r ∈ w_trace w -> EStart t0 c a ∈ w_trace w -> ap_request a = RqCheck q ->
  (forall t1 m q, ETransport t1 m (FromCall c) q ∉ w_trace w) ->
  exists t1 n n' q' rp rs, EAgg t1 KCheck n (Some c) ∈ w_trace w /\ (n' < n)%nat /\
    calls KCheck (w_aggs w) !! n' = Some (OnCheck (CCacheResponse q' rp), rs) /\ sig_of ord md5 q' = sig_of ord md5 q /\ r = RpCheck rp /\
    forall i q'' rp'' rs'', (n' < i < n)%nat -> calls KCheck (w_aggs w) !! i = Some (OnCheck (CCacheResponse q'' rp''), rs'') -> sig_of ord md5 q'' <> sig_of ord md5 q.
Proof. intros *. apply check_latest. Qed.
Print Assumptions C90_check_latest.
Theorem C90_quota_latest : forall debug ord md5 clk cf ths w t c r t0 a q, proper_clock (clk KQuota) ->
  reach debug ord md5 clk cf (ths, w) -> EDone t c SOk r ∈ w_trace w -> EStart t0 c a ∈ w_trace w -> ap_request a = RqQuota q ->
  (forall t1 m q, ETransport t1 m (FromCall c) q ∉ w_trace w) ->
  r = RpQuota empty_quota_response \/
  exists t1 n n' q' rp rs, EAgg t1 KQuota n (Some c) ∈ w_trace w /\ (n' < n)%nat /\
    calls KQuota (w_aggs w) !! n' = Some (OnQuota (QResponse q' rp), rs) /\ qsig md5 q' = qsig md5 q /\ r = RpQuota rp /\
    forall i q'' rp'' rs'', (n' < i < n)%nat -> calls KQuota (w_aggs w) !! i = Some (OnQuota (QResponse q'' rp''), rs'') -> qsig md5 q'' <> qsig md5 q.
Proof. intros *. apply quota_latest. Qed.
Print Assumptions C90_quota_latest.
(** A caller who is told an error is told the error of the transport of the call's own request, or INVALID_ARGUMENT; the
    latter, without anything sent, only if there is no transport or the request is for another service or has no operation. *)
Theorem C90_errors : forall debug ord md5 clk cf ths w l1 t c s r l2 t0 a, proper_clock (clk KQuota) ->
  reach debug ord md5 clk cf (ths, w) -> w_trace w = l1 ++ EDone t c s r :: l2 -> EStart t0 c a ∈ l1 -> s <> SOk ->
  (exists t1 m t2 b, ETransport t1 m (FromCall c) (ap_request a) ∈ l1 /\ ECompleted t2 m s r b ∈ l1) \/
  (s = SInvalidArgument /\ r = RpNone /\ (forall t1 m q, ETransport t1 m (FromCall c) q ∉ l1) /\ (has_transport cf a = false \/ unusable cf (ap_request a))).
Proof. intros *. apply error_told. Qed.
Print Assumptions C90_errors.
(** After [cl_all] a second quota request for "a" is made, then a report for another service.  The second check of "a" (call 1) was
    told the server's answer to the first; the first quota request (call 3) the empty answer; the second (call 4) the
    server's answer to the flushed one; the report (call 5) INVALID_ARGUMENT. *)
Definition cl_told : list act := cl_all ++ [Do 0 (Call (cl_quota "2" "a" 1))] ++ cl_fin ++ [Do 0 (Call cl_other)] ++ cl_fin.
Definition cl_told_s := cl_after cl_told.
Definition told (tr : list event) : list (nat * status_code * reply) := tr ≫= fun ev => match ev with EDone _ c s r => [(c, s, r)] | _ => [] end.
Example C90_example : (forall k, proper_clock (cl_clk k)) /\ cl_reach (cl_told_s.1, cl_told_s.2) /\
  told (w_trace cl_told_s.2) = [(0%nat, SOk, RpCheck (ck_pos "r")); (1%nat, SOk, RpCheck (ck_pos "r")); (2%nat, SOk, RpNone);
    (3%nat, SOk, RpQuota empty_quota_response); (4%nat, SOk, RpQuota qk_ok); (5%nat, SInvalidArgument, RpNone)] /\
  (exists l1 l2, w_trace cl_told_s.2 = l1 ++ EDone 0 1 SOk (RpCheck (ck_pos "r")) :: l2 /\ EStart 0 1 (cl_check "2" "a") ∈ l1) /\
  (exists l1 l2, w_trace cl_told_s.2 = l1 ++ EDone 0 4 SOk (RpQuota qk_ok) :: l2 /\ EStart 0 4 (cl_quota "2" "a" 1) ∈ l1) /\
  forwards 1 (w_trace cl_told_s.2) = [] /\ forwards 4 (w_trace cl_told_s.2) = [].
Proof.
  split. { intros k. apply sorted_table; repeat constructor; lia. } split; [cl_reaches|]. split; [vm_compute; reflexivity|].
  split_and!; [| |vm_compute; reflexivity..].
  - exists (take 12 (w_trace cl_told_s.2)), (drop 13 (w_trace cl_told_s.2)). split; [vm_compute; reflexivity|].
    apply (elem_of_list_lookup_2 _ 9). vm_compute. reflexivity.
  - exists (take 32 (w_trace cl_told_s.2)), (drop 33 (w_trace cl_told_s.2)). split; [vm_compute; reflexivity|].
    apply (elem_of_list_lookup_2 _ 29). vm_compute. reflexivity.
Qed.
