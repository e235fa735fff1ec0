(** C73, C74: why the client calls its aggregators, and where the requests go.  The vocabulary is at the heads of
    ClientTick.v and ClientWhole.v. *)
From Verif Require Import Base Proto Signature OpAgg Lru LruSpec Timeout TimeoutProofs Agg CheckAgg CheckAggSpec QuotaAgg QuotaAggSpec ReportAgg ReportAggSpec.
From Verif Require Import Client ClientSpec ClientTick ClientWhole PropsCheck PropsQuota PropsReport ClientRun PropsClient.
From stdpp Require Import gmap list.
Local Open Scope Z_scope.

(** ** C73 *)
(** Whenever no thread is inside the client, the calls that an aggregator has had are, as a multiset, exactly those that
    the events give a reason for: one for each call of the user with a transport to use, one flush of each cache for
    each tick, one flush of everything for the destruction, and one recording for each answer that is to be recorded. *)
Theorem C73_all_calls_accounted : forall debug ord md5 clk cf ths w k, reach debug ord md5 clk cf (ths, w) -> w_crash w = None -> nothing_running ths ->
  (calls k (w_aggs w)).*1 ≡ₚ due cf k (w_trace w).
Proof. intros *. apply all_calls. Qed.
Print Assumptions C73_all_calls_accounted.
(** And at any time no aggregator has had a call without a reason, or two for one reason. *)
Theorem C73_no_call_without_reason : forall debug ord md5 clk cf ths w k, reach debug ord md5 clk cf (ths, w) -> w_crash w = None ->
  (calls k (w_aggs w)).*1 ⊆+ due cf k (w_trace w).
Proof. intros *. apply no_other_call. Qed.
Print Assumptions C73_no_call_without_reason.
(** After [cl_all] the timer fires twice and the client is destroyed. *)
Definition cl_ticks : list act := cl_all ++ [Do 0 Tick; Run 0 100; Do 0 Tick; Run 0 100; Do 0 Destroy; Run 0 100].
Example C73_example : cl_reach ((cl_after cl_ticks).1, (cl_after cl_ticks).2) /\ w_crash (cl_after cl_ticks).2 = None /\ nothing_running (cl_after cl_ticks).1 /\
  due cl_cf KCheck (w_trace (cl_after cl_ticks).2) =
    [OnCheck (CCheck (ck_req "1" "a")); OnCheck (CCacheResponse (ck_req "1" "a") (ck_pos "r")); OnCheck (CCheck (ck_req "2" "a")); OnCheck CFlush; OnCheck CFlush; OnCheck CFlushAll] /\
  due cl_cf KReport (w_trace (cl_after cl_ticks).2) = [OnReport (RReport (rp_req [rp_op "1" "a" 1])); OnReport RFlush; OnReport RFlush; OnReport RFlushAll].
Proof.
  split; [cl_reaches|]. split; [vm_compute; reflexivity|]. split; [assert ((cl_after cl_ticks).1 = [[IUser]]) as -> by (vm_compute; reflexivity); repeat constructor|].
  split; vm_compute; reflexivity.
Qed.

(** ** C74 *)
(** Whenever no thread is inside the client, every call has returned. *)
Theorem C74_every_call_returned : forall debug ord md5 clk cf ths w t c a, reach debug ord md5 clk cf (ths, w) -> w_crash w = None -> nothing_running ths ->
  EStart t c a ∈ w_trace w -> exists t', EReturn t' c ∈ w_trace w.
Proof. intros *. apply all_returned. Qed.
Print Assumptions C74_every_call_returned.
(** The requests of the user are those that the aggregator answered with OK, with NOT_FOUND and with another status ... *)
Theorem C74_each_request_asked_once : forall debug ord md5 clk cf ths w k, reach debug ord md5 clk cf (ths, w) -> w_crash w = None -> nothing_running ths ->
  answered_with k is_ok (w_aggs w) ++ answered_with k not_found (w_aggs w) ++ answered_with k other_status (w_aggs w) ≡ₚ requests_of cf k (w_trace w).
Proof. intros *. apply all_asked. Qed.
Print Assumptions C74_each_request_asked_once.
(** ... and the requests that were sent for calls are exactly those answered with NOT_FOUND, each once and as it was. *)
Theorem C74_forwarded_exactly : forall debug ord md5 clk cf ths w k, reach debug ord md5 clk cf (ths, w) -> w_crash w = None -> nothing_running ths ->
  sent_for_calls k (w_trace w) ≡ₚ answered_with k not_found (w_aggs w).
Proof. intros *. apply all_forwarded. Qed.
Print Assumptions C74_forwarded_exactly.
(** Reports from end to end.  When the client has been destroyed and no report call was under way when the destructor
    removed the callback, each report of the user was sent as it is, or refused with a status that the user was told, or taken;
    the operations of those that were taken are split into groups of equal signature, and the operations in the reports
    that the flushes sent are, one for each group, the merged ones. *)
Theorem C74_reports_end_to_end : forall debug ord md5 clk cf ths w t l1 l2, proper_clock (clk KReport) ->
  reach debug ord md5 clk cf (ths, w) -> w_crash w = None -> nothing_running ths -> w_trace w = l1 ++ EDisconnect t KReport :: l2 ->
  (forall t' n u, EAgg t' KReport n u ∈ l1 -> EAggReturn t' KReport n ∈ l1) ->
  exists taken refused, requests_of cf KReport (w_trace w) ≡ₚ taken ++ sent_for_calls KReport (w_trace w) ++ refused /\
    (exists gs os, split_into ord md5 (report_operations taken) gs /\ Forall2 (merges ord md5 (cf_reports cf)) gs os /\
       report_operations (sent_by_flush KReport (w_trace w)) ≡ₚ os) /\
    forall q, q ∈ refused -> exists t c a t' s r, EStart t c a ∈ w_trace w /\ ap_request a = q /\ EDone t' c s r ∈ w_trace w /\ s <> SOk /\ s <> SNotFound.
Proof. intros *. apply reports_end. Qed.
Print Assumptions C74_reports_end_to_end.
(** Two reports are merged, one of high importance is forwarded, one for another service is refused; then the client is destroyed. *)
Definition cl_other : api := Api (RqReport (ReportRequest "other" [rp_op "6" "a" 1] "")) None false.
Definition cl_urgent : operation := Operation "5" "a" "c" None None ∅ [] [] 1 "".
Definition cl_reports : list act :=
  [Do 0 Go; Do 0 (Call (cl_report [rp_op "1" "a" 1]))] ++ cl_fin ++ [Do 0 (Call (cl_report [rp_op "2" "a" 4]))] ++ cl_fin ++
  [Do 0 (Call (cl_report [cl_urgent])); Run 0 100; Do 0 (Call cl_other)] ++ cl_fin ++ [Do 0 Destroy; Run 0 100].
Definition cl_reports_s := cl_after cl_reports.
Definition returns_in (l : list event) : bool := forallb (fun ev =>
  match ev with EAgg t KReport n _ => existsb (fun ev' => match ev' with EAggReturn t' KReport m => Nat.eqb t' t && Nat.eqb m n | _ => false end) l | _ => true end) l.
Lemma returns_in_spec l : returns_in l = true -> forall t' n u, EAgg t' KReport n u ∈ l -> EAggReturn t' KReport n ∈ l.
Proof.
  unfold returns_in. rewrite forallb_forall. intros H t n u Hin%elem_of_list_In. specialize (H _ Hin). cbn in H. apply existsb_exists in H as (ev & H1 & H2).
  destruct ev; try done. destruct k; try done. apply andb_true_iff in H2 as [->%Nat.eqb_eq ->%Nat.eqb_eq]. by apply elem_of_list_In.
Qed.
Example C74_example : proper_clock (cl_clk KReport) /\ cl_reach (cl_reports_s.1, cl_reports_s.2) /\ w_crash cl_reports_s.2 = None /\ nothing_running cl_reports_s.1 /\
  (exists l1 l2, w_trace cl_reports_s.2 = l1 ++ EDisconnect 0 KReport :: l2 /\ forall t' n u, EAgg t' KReport n u ∈ l1 -> EAggReturn t' KReport n ∈ l1) /\
  requests_of cl_cf KReport (w_trace cl_reports_s.2) = RqReport <$> [rp_req [rp_op "1" "a" 1]; rp_req [rp_op "2" "a" 4]; rp_req [cl_urgent]; ReportRequest "other" [rp_op "6" "a" 1] ""] /\
  sent_for_calls KReport (w_trace cl_reports_s.2) = [RqReport (rp_req [cl_urgent])] /\
  answered_with KReport other_status (w_aggs cl_reports_s.2) = [RqReport (ReportRequest "other" [rp_op "6" "a" 1] "")] /\
  report_operations (sent_by_flush KReport (w_trace cl_reports_s.2)) = [rp_op "1" "a" 5].
Proof.
  split. { apply sorted_table; repeat constructor; lia. } split; [cl_reaches|]. split; [vm_compute; reflexivity|].
  split. { assert (cl_reports_s.1 = [[IUser]]) as -> by (vm_compute; reflexivity). repeat constructor. }
  split.
  { exists (take 31 (w_trace cl_reports_s.2)), (drop 32 (w_trace cl_reports_s.2)). split; [vm_compute; reflexivity|]. apply returns_in_spec. vm_compute. reflexivity. }
  repeat split; vm_compute; reflexivity.
Qed.
