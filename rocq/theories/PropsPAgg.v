(** C88: the aggregators with the cache as it is in memory, its lists threaded through pointers. *)
From Verif Require Import Base Proto Signature OpAgg OpAggSpec Lru LruSpec Timeout Agg CheckAgg CheckAggSpec ReportAgg ReportAggSpec LinkedList PLru PAgg PAggProofs PAggBack Client ClientInv PropsCheck PropsReport.
From stdpp Require Import gmap list.
Local Open Scope Z_scope.

(** ** C88 *)
(** A sequence of calls gives exactly the results it gives when the cache is a list: so all that was proved of the
    results (C38-C47, C64-C67) holds of the pointers' program. *)
Theorem C88_check_same_results : forall ord md5 clk cf, proper_clock clk -> forall calls rs,
  (exists p, p_check_history ord md5 clk cf calls = Ok (p, rs)) <-> (exists st h, creach ord md5 clk cf st h /\ cv_call <$> h = calls /\ told h = rs).
Proof.
  intros * Hclk *. split.
  - intros (p & H). by eapply check_back.
  - intros (st & h & R & <- & <-). destruct (check_same R) as (p & E & _). by exists p.
Qed.
Print Assumptions C88_check_same_results.
Theorem C88_report_same_results : forall ord md5 clk cf, proper_clock clk -> forall calls rs,
  (exists p, p_report_history ord md5 clk cf calls = Ok (p, rs)) <-> (exists st h, rreach ord md5 clk cf st h /\ rv_call <$> h = calls /\ rtold h = rs).
Proof.
  intros * Hclk *. split.
  - intros (p & H). by eapply report_back.
  - intros (st & h & R & <- & <-). destruct (report_same R) as (p & E & _). by exists p.
Qed.
Print Assumptions C88_report_same_results.

(** No call follows a null or dangling pointer, deletes twice or runs for ever: every call returns.  The only exception
    is a call with an operation that, merged with earlier ones, is undefined (overflowing metrics). *)
Theorem C88_check_no_bad_pointer : forall ord md5 clk cf, proper_clock clk -> forall calls p rs call,
  p_check_history ord md5 clk cf calls = Ok (p, rs) ->
  (exists r, p_cstep ord md5 clk cf call p = Ok r) \/
  (exists q first rest, call = CCheck q /\ (first :: rest) `sublist_of` p_checked (calls ++ [call]) /\
     forall x, aggregate ord md5 (cc_kinds cf) first rest <> Ok x).
Proof. intros *. apply check_complete. Qed.
Print Assumptions C88_check_no_bad_pointer.
Theorem C88_report_no_bad_pointer : forall ord md5 clk cf, proper_clock clk -> forall calls p rs call,
  p_report_history ord md5 clk cf calls = Ok (p, rs) ->
  (exists r, p_rstep ord md5 clk cf call p = Ok r) \/
  (exists q first rest, call = RReport q /\ (first :: rest) `sublist_of` p_reported (calls ++ [call]) /\
     forall x, aggregate ord md5 (rc_kinds cf) first rest <> Ok x).
Proof. intros *. apply report_complete. Qed.
Print Assumptions C88_report_no_bad_pointer.

(** Between calls the memory is tidy: no broken link, no leaked element or object, nothing left pinned. *)
Theorem C88_check_memory : forall ord md5 clk cf, proper_clock clk -> forall calls p rs x,
  p_check_history ord md5 clk cf calls = Ok (p, rs) -> pca_cache p = Some x -> exists rec, tidy x (p_vals (pca_pool p)) rec.
Proof. intros *. apply check_tidy. Qed.
Print Assumptions C88_check_memory.
Theorem C88_report_memory : forall ord md5 clk cf, proper_clock clk -> forall calls p rs x,
  p_report_history ord md5 clk cf calls = Ok (p, rs) -> pra_cache p = Some x -> exists rec, tidy x (p_vals (pra_pool p)) rec.
Proof. intros *. apply report_tidy. Qed.
Print Assumptions C88_report_memory.

(** After any calls the aggregator can be destroyed; the cache's destructor finds it empty. *)
Theorem C88_check_destroyed : forall ord md5 clk cf, proper_clock clk -> forall calls p rs,
  p_check_history ord md5 clk cf calls = Ok (p, rs) -> PDestroyCheck ord cf p = Ok tt.
Proof. intros *. apply check_destroyed. Qed.
Print Assumptions C88_check_destroyed.
Theorem C88_report_destroyed : forall ord md5 clk cf, proper_clock clk -> forall calls p rs,
  p_report_history ord md5 clk cf calls = Ok (p, rs) -> PDestroyReport ord cf p = Ok tt.
Proof. intros *. apply report_destroyed. Qed.
Print Assumptions C88_report_destroyed.

(** The calls a client makes on its aggregators, whatever its threads do, have the results they had. *)
Theorem C88_client : forall debug ord md5 clk cf ths w, reach debug ord md5 clk cf (ths, w) ->
  (exists p, p_check_history ord md5 (clk KCheck) (cf_checks cf) (cv_call <$> ag_hc (w_aggs w)) = Ok (p, told (ag_hc (w_aggs w)))) /\
  (exists p, p_report_history ord md5 (clk KReport) (cf_reports cf) (rv_call <$> ag_hr (w_aggs w)) = Ok (p, rtold (ag_hr (w_aggs w)))).
Proof.
  intros * R. destruct (reach_sequential R) as (R1 & _ & R3). destruct (check_same R1) as (p1 & E1 & _). destruct (report_same R3) as (p3 & E3 & _). eauto.
Qed.
Print Assumptions C88_client.

(** Two responses are cached; a third pushes out the first, for there is room for two; then one is found again. *)
Definition pa_calls : list check_call :=
  [CCacheResponse (ck_req "1" "a") (ck_pos "r1"); CCacheResponse (ck_req "2" "b") (ck_pos "r2"); CCheck (ck_req "3" "b");
   CCacheResponse (ck_req "4" "c") (ck_neg "r3"); CCheck (ck_req "5" "b"); CCheck (ck_req "6" "a")].
Definition pa_clk (n : nat) : Z := Z.of_nat n.
Definition pa_run := p_check_history default_order ck_md5 pa_clk (ck_cf (CheckOptions 2 500 1000)) pa_calls.
Definition pa_seen (r : outcome (pcheck_agg * list (check_call * check_result))) : list status_code * option (list nat) * nat :=
  match r with
  | Ok (p, rs) => ((fun q => cres_status q.2) <$> rs, match pca_cache p with Some x => forward (p_links x) 0 | None => None end, size (p_vals (pca_pool p)))
  | _ => ([], None, 0%nat)
  end.
Example C88_example : proper_clock pa_clk /\ pa_seen pa_run = ([SOk; SOk; SOk; SOk; SOk; SNotFound], Some [2; 3]%nat, 2%nat) /\
  match pa_run with Ok (p, _) => PDestroyCheck default_order (ck_cf (CheckOptions 2 500 1000)) p | _ => Abort end = Ok tt.
Proof. split; [split; unfold pa_clk; intros; lia|]. split; vm_compute; reflexivity. Qed.
Definition pa_reports : list report_call :=
  [RReport (rp_req [rp_op "1" "a" 1; rp_op "2" "b" 1; rp_op "3" "a" 100]); RReport (rp_req [rp_op "4" "c" 1; rp_op "5" "d" 1]); RFlush].
Definition pa_rrun := p_report_history default_order ck_md5 pa_clk (rp_cf (ReportOptions 2 1000)) pa_reports.
Example C88_report_example : exists p rs x, pa_rrun = Ok (p, rs) /\ pra_cache p = Some x /\ forward (p_links x) 0 = Some [4; 3]%nat /\
  (fun r => rp_seen (rres_flushed r.2)) <$> rs = [[[("a"%string, 101%nat)]]; [[("b"%string, 1%nat)]]; []] /\ PDestroyReport default_order (rp_cf (ReportOptions 2 1000)) p = Ok tt.
Proof. eexists _, _, _. split; [vm_compute; reflexivity|]. split; [reflexivity|]. split; [vm_compute; reflexivity|]. split; vm_compute; reflexivity. Qed.
