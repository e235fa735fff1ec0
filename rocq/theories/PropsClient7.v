(** C95: the age of the answers that the quota cache gives.  [hands_out sig ev] says that the aggregator call [ev] gave a request
    of signature [sig] to the flush callback, [responds sig ev] that [ev] recorded an answer for it. *)
From Verif Require Import Base Proto Signature OpAgg OpAggSpec Lru LruSpec Timeout TimeoutProofs Agg CheckAgg CheckAggSpec QuotaAgg QuotaAggSpec ReportAgg ReportAggSpec.
From Verif Require Import Client ClientSpec ClientWhole QuotaFresh ClientQuotaFresh PropsCheck PropsQuota PropsReport ClientRun PropsClient PropsClient4.
From stdpp Require Import gmap list.
Local Open Scope Z_scope.

(** A Quota call of the aggregator hands out a request for its signature; or the last one that was handed out was so less
    than the refresh interval before, or is not answered yet. *)
Theorem C95_quota_fresh : forall debug ord md5 clk cf, proper_clock clk -> forall st h q st' res,
  0 < qp_entries (qf_options cf) -> qreach debug ord md5 clk cf st h -> told_apart md5 h -> returns debug ord md5 clk cf (QQuota q) st (st', res) -> well_addressed cf q ->
  Exists (fun q' => qsig md5 q' = qsig md5 q) (qres_flushed res) \/
  exists h1 ev h2, h = h1 ++ ev :: h2 /\ hands_out md5 (qsig md5 q) ev /\ Forall (fun v => ~ hands_out md5 (qsig md5 q) v) h2 /\
    (Forall (fun v => ~ responds md5 (qsig md5 q) v) h2 \/
     exists now before, qduring clk now (QuotaEvent (QQuota q) res (qreadings st) (qreadings st') st') /\ qduring clk before ev /\ now - before < refresh_interval_in_cycle cf).
Proof. exact quota_fresh. Qed.
Print Assumptions C95_quota_fresh.
(** The same for a caller of the client who is told OK although nothing was sent for the call: [n] is the call of the
    aggregator that was made for it and [n0] the last one, up to [n], that handed out a request of the signature, which the
    flush callback is given by the time that call returns, unless the callback has been removed. *)
Theorem C95_told_fresh : forall debug ord md5 clk cf ths w t c r t0 a q, proper_clock (clk KQuota) -> reach debug ord md5 clk cf (ths, w) -> w_crash w = None ->
  told_apart md5 (ag_hq (w_aggs w)) ->
  EDone t c SOk r ∈ w_trace w -> EStart t0 c a ∈ w_trace w -> ap_request a = RqQuota q -> (forall t1 m q, ETransport t1 m (FromCall c) q ∉ w_trace w) ->
  exists t1 n ev n0 ev0, EAgg t1 KQuota n (Some c) ∈ w_trace w /\ (n0 <= n)%nat /\
    ag_hq (w_aggs w) !! n = Some ev /\ ag_hq (w_aggs w) !! n0 = Some ev0 /\ hands_out md5 (qsig md5 q) ev0 /\
    (forall i v, (n0 < i <= n)%nat -> ag_hq (w_aggs w) !! i = Some v -> ~ hands_out md5 (qsig md5 q) v) /\
    (n0 = n \/ (forall i v, (n0 < i <= n)%nat -> ag_hq (w_aggs w) !! i = Some v -> ~ responds md5 (qsig md5 q) v) \/
     exists now before, qduring (clk KQuota) now ev /\ qduring (clk KQuota) before ev0 /\ now - before < refresh_interval_in_cycle (cf_quotas cf)) /\
    (forall t2, EAggReturn t2 KQuota n0 ∈ w_trace w -> (forall t', EDisconnect t' KQuota ∉ w_trace w) ->
       exists q', qsig md5 q' = qsig md5 q /\ ECallback t2 KQuota n0 (RqQuota q') ∈ w_trace w).
Proof. intros *. apply quota_told_fresh. Qed.
Print Assumptions C95_told_fresh.
(** The second Quota call of [cl_told] (call 4) is told the recorded answer at once; in [qk_calls] the third Quota call comes
    after the refresh interval and hands out a request, the one before it does not. *)
Lemma cl_apart md5 h : (exists p, Forall (fun q => about q = p) (qk_asks h)) -> told_apart md5 h.
Proof.
  intros (p & F) ev1 ev2 q1 q2 H1 H2 E1 E2 _. rewrite Forall_forall in F.
  rewrite (F q1), (F q2); [done|..]; apply elem_of_list_bind; [exists ev2; rewrite E2|exists ev1; rewrite E1]; (split; [constructor|done]).
Qed.
Example C95_example : proper_clock (cl_clk KQuota) /\ cl_reach (cl_told_s.1, cl_told_s.2) /\ w_crash cl_told_s.2 = None /\ told_apart ck_md5 (ag_hq (w_aggs cl_told_s.2)) /\
  EDone 0 4 SOk (RpQuota qk_ok) ∈ w_trace cl_told_s.2 /\ EStart 0 4 (cl_quota "2" "a" 1) ∈ w_trace cl_told_s.2 /\ forwards 4 (w_trace cl_told_s.2) = [] /\
  (exists r, qk_returns (QQuota (qk_a "3" 3)) (qk_st (take 3 qk_calls)) r /\ Exists (fun q => qsig qk_md5 q = qk_sig) (qres_flushed r.2)) /\
  (exists r, qk_returns (QQuota (qk_a "2" 2)) (qk_st (take 2 qk_calls)) r /\ qres_flushed r.2 = []).
Proof.
  split. { apply sorted_table; repeat constructor; lia. } split; [cl_reaches|]. split; [vm_compute; reflexivity|].
  split. { apply cl_apart. assert (qk_asks (ag_hq (w_aggs cl_told_s.2)) = [qk_req "1" "a" 1; qk_req "2" "a" 1]) as -> by (vm_compute; reflexivity). eexists. repeat constructor. }
  split. { apply (elem_of_list_lookup_2 _ 32). vm_compute. reflexivity. }
  split. { apply (elem_of_list_lookup_2 _ 29). vm_compute. reflexivity. }
  split; [vm_compute; reflexivity|]. split.
  - eexists. split; [exists qk_fuel; vm_compute; reflexivity|]. vm_compute. by constructor.
  - eexists. split; [exists qk_fuel; vm_compute; reflexivity|]. vm_compute. reflexivity.
Qed.
