(** C96: how long the reports that the client takes wait before they are sent. *)
From Verif Require Import Base Proto Signature OpAgg OpAggSpec Lru LruSpec Timeout TimeoutProofs Agg CheckAgg CheckAggSpec QuotaAgg QuotaAggSpec ReportAgg ReportAggSpec.
From Verif Require Import Client ClientSpec ClientWhole ClientQuota ClientReportTime PropsCheck PropsQuota PropsReport ClientRun PropsClient PropsClient5.
From stdpp Require Import gmap list.
Local Open Scope Z_scope.

(** When nothing is running and the last thing that happened to the report cache was a flush or an accepted report ([ev]):
    each report of the user was sent as it is, or refused with a status that the user was told, or taken; the operations of
    those that were taken are split into groups, whose merges are the operations in the reports that the flushes sent, and
    the ones that are pending.  A pending operation is one of a call for which the report cache was asked, at a reading of the
    clock, at most the flush interval before [ev] began. *)
Theorem C96_reports_in_time : forall debug ord md5 clk cf ths w ev idle, proper_clock (clk KReport) -> reach debug ord md5 clk cf (ths, w) -> w_crash w = None ->
  nothing_running ths -> undisturbed KReport (w_trace w) ->
  last (ag_hr (w_aggs w)) = Some ev -> looks ev -> cycles_of_ms (ro_flush_ms (rc_options (cf_reports cf))) = Ok (Some idle) ->
  exists taken refused gs os pending, requests_of cf KReport (w_trace w) ≡ₚ taken ++ sent_for_calls KReport (w_trace w) ++ refused /\
    Forall2 (merges ord md5 (cf_reports cf)) gs os /\ report_operations (sent_by_flush KReport (w_trace w)) ≡ₚ os /\
    report_operations taken ≡ₚ concat gs ++ pending /\
    (forall o, o ∈ pending -> exists t c a q n v i, EStart t c a ∈ w_trace w /\ ap_request a = RqReport q /\ o ∈ rr_operations q /\
       EAgg t KReport n (Some c) ∈ w_trace w /\ ag_hr (w_aggs w) !! n = Some v /\ (rv_from v <= i < rv_to v)%nat /\
       clk KReport (rv_from ev) - clk KReport i <= idle) /\
    forall q, q ∈ refused -> exists t c a t' s r, EStart t c a ∈ w_trace w /\ ap_request a = q /\ EDone t' c s r ∈ w_trace w /\ s <> SOk /\ s <> SNotFound.
Proof. intros *. apply reports_in_time. Qed.
Print Assumptions C96_reports_in_time.
(** A report at 0 s, one of another signature at 0.6 s, and the timer at 1.5 s, with the default interval of 1 s: the first is
    sent, the second is pending. *)
Definition cl_in_time_clk (k : kind) : nat -> Z := match k with KReport => table_clock (replicate 3 0 ++ replicate 2 600000 ++ [1500000]) | _ => table_clock [0] end.
Definition cl_in_time : list act :=
  [Do 0 Go; Do 0 (Call (cl_report [rp_op "1" "a" 1]))] ++ cl_fin ++ [Do 0 (Call (cl_report [rp_op "2" "b" 1]))] ++ cl_fin ++ [Do 0 Tick; Run 0 100].
Definition cl_in_time_s := after cl_in_time_clk cl_cf cl_in_time.
Example C96_example : proper_clock (cl_in_time_clk KReport) /\ reach true default_order ck_md5 cl_in_time_clk cl_cf (cl_in_time_s.1, cl_in_time_s.2) /\
  w_crash cl_in_time_s.2 = None /\ nothing_running cl_in_time_s.1 /\ undisturbed KReport (w_trace cl_in_time_s.2) /\
  (exists ev, last (ag_hr (w_aggs cl_in_time_s.2)) = Some ev /\ rv_call ev = RFlush /\ looks ev /\ cl_in_time_clk KReport (rv_from ev) = 1500000) /\
  cycles_of_ms (ro_flush_ms (rc_options (cf_reports cl_cf))) = Ok (Some 1000000) /\
  op_id <$> report_operations (requests_of cl_cf KReport (w_trace cl_in_time_s.2)) = ["1"; "2"]%string /\
  op_id <$> report_operations (sent_by_flush KReport (w_trace cl_in_time_s.2)) = ["1"]%string.
Proof.
  split. { apply sorted_table; repeat constructor; lia. } split; [cl_reaches|]. split; [vm_compute; reflexivity|].
  split. { assert (cl_in_time_s.1 = [[IUser]]) as -> by (vm_compute; reflexivity). repeat constructor. }
  split. { apply undisturbed_spec. vm_compute. reflexivity. }
  split. { eexists. split; [vm_compute; reflexivity|]. split; [reflexivity|]. split; [exact I|vm_compute; reflexivity]. }
  split_and!; vm_compute; reflexivity.
Qed.
