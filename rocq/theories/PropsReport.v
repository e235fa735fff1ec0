(** C43-C47, C66, C67: the report aggregator.  The vocabulary is in ReportAggSpec.v: a history is a list of finished
    calls with their results, [rreach] are the states and histories from construction on, [accepted] are the operations
    of the requests answered OK, [rflushed] the requests given to the flush callback. *)
From Verif Require Import Base Proto Signature OpAgg OpAggSpec Lru LruSpec Timeout TimeoutProofs Agg ReportAgg ReportAggSpec ReportAggClaims.
From Verif Require Import PropsCheck.
From stdpp Require Import gmap list.
Local Open Scope Z_scope.

(** ** Concrete runs, for the examples *)
Fixpoint rp_play ord md5 clk cf (calls : list report_call) (st : report_agg) (h : list report_event) : option (report_agg * list report_event) :=
  match calls with
  | [] => Some (st, h)
  | call :: calls =>
    match rstep ord md5 clk cf call st with
    | Ok r => rp_play ord md5 clk cf calls r.1 (h ++ [ReportEvent call r.2 (rreadings st) (rreadings r.1) r.1])
    | _ => None
    end
  end.
Definition rp_run ord md5 clk cf calls : option (report_agg * list report_event) :=
  match NewReportAggregator ord clk cf with Ok st => rp_play ord md5 clk cf calls st [] | _ => None end.
Lemma rp_reach ord md5 clk cf calls x : rp_run ord md5 clk cf calls = Some x -> rreach ord md5 clk cf x.1 x.2.
Proof.
  unfold rp_run. destruct (NewReportAggregator ord clk cf) as [st| | |] eqn:E; try done.
  assert (rreach ord md5 clk cf st []) as R by by constructor. revert R. generalize (@nil report_event) as h. clear E. revert st.
  induction calls as [|call calls IH]; intros st h R; cbn; [by intros [= <-]|].
  destruct (rstep ord md5 clk cf call st) as [[st' r]| | |] eqn:E; try done. apply IH. by econstructor.
Qed.
Definition rp_default_options : report_options := ReportOptions 10000 1000.
Definition rp_cf (opts : report_options) : report_config := ReportConfig "svc" "cfg" opts None.
Definition rp_op (id name : string) (logs : nat) : operation := Operation id name "c" None None ∅ [] (repeat "l"%string logs) LOW "".
Definition rp_req (ops : list operation) : report_request := ReportRequest "svc" ops "".
(** Flush interval 1000 ms (the default).  Three operations at 0, one at 500 ms that fills the log of the first
    signature, one at 900 ms, a Flush at 1500 ms and a FlushAll. *)
Definition rp_clk : nat -> Z := table_clock ([0;0;0;0;0;0] ++ [500000] ++ [900000;900000] ++ [1500000]).
Lemma rp_clock : proper_clock rp_clk.
Proof. apply sorted_table; repeat constructor; lia. Qed.
Definition rp_calls : list report_call :=
  [RReport (rp_req [rp_op "1" "a" 1; rp_op "2" "b" 0; rp_op "3" "a" 0]); RReport (rp_req [rp_op "4" "a" 99]);
   RReport (rp_req [rp_op "5" "a" 2]); RFlush; RFlushAll].
Definition rp_state (opts : report_options) (calls : list report_call) : report_agg :=
  match rp_run default_order ck_md5 rp_clk (rp_cf opts) calls with Some x => x.1 | None => ReportAgg None (Pool ∅ 0%nat []) end.
Definition rp_hist (opts : report_options) (calls : list report_call) : list report_event :=
  match rp_run default_order ck_md5 rp_clk (rp_cf opts) calls with Some x => x.2 | None => [] end.
Lemma rp_reaches opts calls : rp_run default_order ck_md5 rp_clk (rp_cf opts) calls <> None ->
  rreach default_order ck_md5 rp_clk (rp_cf opts) (rp_state opts calls) (rp_hist opts calls).
Proof. intros H. unfold rp_state, rp_hist. destruct (rp_run _ _ _ _ _) as [x|] eqn:E; [|done]. by apply (rp_reach _ _ _ _ _ _ E). Qed.
Ltac rreaches := apply rp_reaches; vm_compute; discriminate.
Notation rp_st := (rp_state rp_default_options).
Notation rp_h := (rp_hist rp_default_options).
Notation rp_rreach := (rreach default_order ck_md5 rp_clk (rp_cf rp_default_options)).
Notation rp_step := (rstep default_order ck_md5 rp_clk (rp_cf rp_default_options)).
Definition rp_no_event : report_event := ReportEvent RFlush (ReportResult SOk []) 0 0 (ReportAgg None (Pool ∅ 0%nat [])).
Definition rp_ev (n : nat) : report_event := nth n (rp_h rp_calls) rp_no_event.
(** What was flushed, as operation names and numbers of log entries. *)
Definition rp_seen (qs : list report_request) : list (list (string * nat)) := (fun q => (fun o => (op_name o, length (op_logs o))) <$> rr_operations q) <$> qs.
(** Twelve operations with different names. *)
Definition rp_names : list string := ["a";"b";"c";"d";"e";"f";"g";"h";"i";"j";"k";"l"]%string.
Definition rp_many : list report_call := [RReport (rp_req ((fun n => rp_op "1" n 0) <$> rp_names)); RFlushAll].

(** ** C43 *)
(** After any history: a FlushAll succeeds, and then the operations given to the flush callback, in the history and by
    this FlushAll, are the merges of groups into which exactly the accepted operations are split, in order; nothing is
    left for a second Flush or FlushAll. *)
Theorem C43_flushed_exactly_once : forall ord md5 clk cf, proper_clock clk -> forall st h, rreach ord md5 clk cf st h ->
  exists st' qs gs, rstep ord md5 clk cf RFlushAll st = Ok (st', ReportResult SOk qs) /\
    Forall2 (merges ord md5 cf) gs (ops_of (rflushed h ++ qs)) /\
    split_into ord md5 (accepted h) gs /\
    (forall call st2 res, call = RFlush \/ call = RFlushAll -> rstep ord md5 clk cf call st' = Ok (st2, res) -> rres_flushed res = []).
Proof. exact flushed_exactly_once. Qed.
Print Assumptions C43_flushed_exactly_once.
(** At any moment the operations flushed so far merge groups of the accepted ones, none of them twice. *)
Theorem C43_never_twice : forall ord md5 clk cf, proper_clock clk -> forall st h, rreach ord md5 clk cf st h ->
  exists gs pending, Forall2 (merges ord md5 cf) gs (ops_of (rflushed h)) /\ split_into ord md5 (accepted h) (gs ++ pending) /\
    concat gs ++ concat pending ≡ₚ accepted h.
Proof. exact never_twice. Qed.
Print Assumptions C43_never_twice.
Example C43_example : rp_rreach (rp_st rp_calls) (rp_h rp_calls) /\
  rp_seen (rflushed (rp_h rp_calls)) = [[("a", 100%nat)]; [("b", 0%nat)]; [("a", 2%nat)]]%string /\
  op_id <$> accepted (rp_h rp_calls) = ["1"; "2"; "3"; "4"; "5"]%string.
Proof. split; [rreaches|]. split; vm_compute; reflexivity. Qed.

(** ** C44 *)
Theorem C44_batches : forall ord md5 clk cf, proper_clock clk -> forall st h ev, rreach ord md5 clk cf st h -> ev ∈ h ->
  forall i q, rres_flushed (rv_result ev) !! i = Some q ->
    rr_service q = rc_service cf /\ rr_config q = rc_config_id cf /\ (1 <= length (rr_operations q) <= 10)%nat /\
    (S i < length (rres_flushed (rv_result ev)) -> length (rr_operations q) = 10)%nat.
Proof. exact batches. Qed.
Print Assumptions C44_batches.
Example C44_example : let opts := ReportOptions 10000 5000 in
  rreach default_order ck_md5 rp_clk (rp_cf opts) (rp_state opts rp_many) (rp_hist opts rp_many) /\
  (fun q => length (rr_operations q)) <$> rflushed (rp_hist opts rp_many) = [10; 2]%nat /\
  rr_config <$> rflushed (rp_hist opts rp_many) = ["cfg"; "cfg"]%string.
Proof. intros opts. split; [rreaches|]. split; vm_compute; reflexivity. Qed.

(** ** C45 *)
Theorem C45_foreign_rejected : forall ord md5 clk cf q st, rr_service q <> rc_service cf ->
  rstep ord md5 clk cf (RReport q) st = Ok (st, ReportResult SInvalidArgument []).
Proof. exact report_foreign. Qed.
Print Assumptions C45_foreign_rejected.
Theorem C45_important_forwarded : forall ord md5 clk cf q st, rr_service q = rc_service cf ->
  Exists (fun o => op_importance o <> LOW) (rr_operations q) ->
  rstep ord md5 clk cf (RReport q) st = Ok (st, ReportResult SNotFound []).
Proof. exact report_important. Qed.
Print Assumptions C45_important_forwarded.
Theorem C45_disabled_forwards : forall ord md5 clk cf, proper_clock clk -> forall st h q, rreach ord md5 clk cf st h ->
  ro_entries (rc_options cf) <= 0 -> rr_service q = rc_service cf ->
  rstep ord md5 clk cf (RReport q) st = Ok (st, ReportResult SNotFound []) /\ accepted h = [] /\ rflushed h = [].
Proof. exact report_disabled. Qed.
Print Assumptions C45_disabled_forwards.
(** All other reports are accepted. *)
Theorem C45_others_accepted : forall ord md5 clk cf, proper_clock clk -> forall st h q st' res, rreach ord md5 clk cf st h ->
  0 < ro_entries (rc_options cf) -> rr_service q = rc_service cf -> Forall (fun o => op_importance o = LOW) (rr_operations q) ->
  rstep ord md5 clk cf (RReport q) st = Ok (st', res) -> rres_status res = SOk.
Proof. exact report_accepted. Qed.
Print Assumptions C45_others_accepted.
Example C45_example : 
  (exists x, rp_step (RReport (rp_req [rp_op "1" "a" 0])) (rp_st (take 1 rp_calls)) = Ok x /\ rres_status x.2 = SOk) /\
  rp_step (RReport (rp_req [rp_op "1" "a" 0; Operation "2" "a" "c" None None ∅ [] [] 1 ""])) (rp_st (take 1 rp_calls)) =
    Ok (rp_st (take 1 rp_calls), ReportResult SNotFound []) /\
  rreach default_order ck_md5 rp_clk (rp_cf (ReportOptions 0 1000)) (rp_state (ReportOptions 0 1000) rp_calls) (rp_hist (ReportOptions 0 1000) rp_calls).
Proof. split; [eexists; split; vm_compute; reflexivity|]. split; [vm_compute; reflexivity|rreaches]. Qed.

(** ** C46 *)
(** After any Flush, FlushAll or accepted report: what is still pending was accepted by calls during which the clock
    showed a time no earlier than the interval before this call. *)
Theorem C46_flushed_in_time : forall ord md5 clk cf, proper_clock clk -> forall st h ev idle,
  rreach ord md5 clk cf st (h ++ [ev]) -> looks ev -> cycles_of_ms (ro_flush_ms (rc_options cf)) = Ok (Some idle) ->
  exists gs pending, Forall2 (merges ord md5 cf) gs (ops_of (rflushed (h ++ [ev]))) /\ concat gs ++ pending ≡ₚ accepted (h ++ [ev]) /\
    pending ⊆+ accepted (filter (reads_since clk (clk (rv_from ev) - idle)) (h ++ [ev])).
Proof. exact flushed_in_time. Qed.
Print Assumptions C46_flushed_in_time.
Example C46_example : rp_rreach (rp_st (take 4 rp_calls)) (take 3 (rp_h rp_calls) ++ [rp_ev 3]) /\ looks (rp_ev 3) /\
  cycles_of_ms 1000 = Ok (Some 1000000) /\ rp_clk (rv_from (rp_ev 3)) = 1500000 /\
  op_id <$> accepted (filter (reads_since rp_clk (1500000 - 1000000)) (take 3 (rp_h rp_calls) ++ [rp_ev 3])) = ["4"; "5"]%string.
Proof.
  split. { assert (take 3 (rp_h rp_calls) ++ [rp_ev 3] = rp_h (take 4 rp_calls)) as -> by (vm_compute; reflexivity). rreaches. }
  repeat (split; [vm_compute; (reflexivity || exact I)|]). vm_compute; reflexivity.
Qed.

(** ** C47 *)
(** At most num_entries operations are pending; one that merges several has fewer than 100 log entries.  A flushed one
    had fewer than 100 before its last merge, unless that was its second operation. *)
Theorem C47_logs_bounded : forall ord md5 clk cf, proper_clock clk -> forall st h, rreach ord md5 clk cf st h ->
  exists gs pending st' qs, rstep ord md5 clk cf RFlushAll st = Ok (st', ReportResult SOk qs) /\
    Forall2 (merges ord md5 cf) gs (ops_of (rflushed h)) /\ Forall2 (merges ord md5 cf) pending (ops_of qs) /\
    split_into ord md5 (accepted h) (gs ++ pending) /\
    Z.of_nat (length pending) <= Z.max 0 (ro_entries (rc_options cf)) /\
    Forall (fun g => (length g <= 1)%nat \/ (logs_in g < 100)%nat) pending /\
    Forall (fun g => (length g <= 2)%nat \/ (logs_in (removelast g) < 100)%nat) gs.
Proof. exact logs_bounded. Qed.
Print Assumptions C47_logs_bounded.
(** In numbers: if no accepted operation has more than [n] log entries, no flushed operation has [100 + n] or more, or
    it merges two operations and has at most [2 * n]. *)
Theorem C47_flushed_logs : forall ord md5 clk cf, proper_clock clk -> forall st h n, rreach ord md5 clk cf st h ->
  Forall (fun o => (length (op_logs o) <= n)%nat) (accepted h) ->
  Forall (fun o => (length (op_logs o) < 100 + n \/ length (op_logs o) <= 2 * n)%nat) (ops_of (rflushed h)).
Proof. exact flushed_logs. Qed.
Print Assumptions C47_flushed_logs.
(** The simpler bound "fewer than 100 and those of one operation" does not hold: the limit is only looked at after a merge. *)
Theorem C47_one_operation_bound_refuted : ~ forall ord md5 clk cf, proper_clock clk -> forall st h n, rreach ord md5 clk cf st h ->
  Forall (fun o => (length (op_logs o) <= n)%nat) (accepted h) ->
  Forall (fun o => (length (op_logs o) < 100 + n)%nat) (ops_of (rflushed h)).
Proof.
  intros H. pose (calls := [RReport (rp_req [rp_op "1" "a" 120]); RReport (rp_req [rp_op "2" "a" 120])]).
  assert (R : rp_rreach (rp_st calls) (rp_h calls)) by rreaches.
  specialize (H _ _ _ _ rp_clock _ _ 120%nat R).
  assert (accepted (rp_h calls) = [rp_op "1" "a" 120; rp_op "2" "a" 120]) as E1 by (vm_compute; reflexivity). rewrite E1 in H.
  assert ((fun o => length (op_logs o)) <$> ops_of (rflushed (rp_h calls)) = [240%nat]) as E2 by (vm_compute; reflexivity).
  destruct (ops_of (rflushed (rp_h calls))) as [|o l]; [done|]. injection E2 as E2 _.
  assert (X : (length (op_logs o) < 100 + 120)%nat); [|lia].
  refine (Forall_inv (H _)). repeat constructor; cbn [op_logs rp_op]; rewrite repeat_length; lia.
Qed.
Print Assumptions C47_one_operation_bound_refuted.
Example C47_example : rp_rreach (rp_st (take 2 rp_calls)) (rp_h (take 2 rp_calls)) /\
  Forall (fun o => (length (op_logs o) <= 99)%nat) (accepted (rp_h (take 2 rp_calls))) /\
  rp_seen (rflushed (rp_h (take 2 rp_calls))) = [[("a", 100%nat)]]%string.
Proof.
  split; [rreaches|]. split; [|vm_compute; reflexivity]. 
  assert (accepted (rp_h (take 2 rp_calls)) = [rp_op "1" "a" 1; rp_op "2" "b" 0; rp_op "3" "a" 0; rp_op "4" "a" 99]) as -> by (vm_compute; reflexivity).
  repeat constructor; cbn [op_logs rp_op]; rewrite repeat_length; lia.
Qed.

(** ** C66 *)
(** Every call completes normally.  The only exception is a report with an operation that, merged with earlier
    ones, is undefined (overflowing metrics). *)
Theorem C66_calls_complete : forall ord md5 clk cf, proper_clock clk -> forall st h call, rreach ord md5 clk cf st h ->
  (exists r, rstep ord md5 clk cf call st = Ok r) \/
  (exists q first rest, call = RReport q /\ (first :: rest) `sublist_of` accepted h ++ rr_operations q /\
     forall x, aggregate ord md5 (rc_kinds cf) first rest <> Ok x).
Proof. exact calls_complete. Qed.
Print Assumptions C66_calls_complete.
Theorem C66_destruction_completes : forall ord md5 clk cf, proper_clock clk -> forall st h, rreach ord md5 clk cf st h ->
  DestroyReportAggregator ord cf st = Ok tt.
Proof. exact destroy_complete. Qed.
Print Assumptions C66_destruction_completes.
Theorem C66_construction_completes : forall ord md5 clk cf, proper_clock clk ->
  int32_min <= ro_flush_ms (rc_options cf) <= int32_max -> exists st, rreach ord md5 clk cf st [].
Proof. exact new_complete. Qed.
Print Assumptions C66_construction_completes.
Example C66_example : rp_rreach (rp_st (take 3 rp_calls)) (rp_h (take 3 rp_calls)) /\
  exists r, rp_step (RReport (rp_req [rp_op "7" "b" 0; rp_op "8" "a" 3])) (rp_st (take 3 rp_calls)) = Ok r.
Proof. split; [rreaches|]. eexists. vm_compute. reflexivity. Qed.

(** ** C67 *)
(** As long as the signatures accepted fit into the cache, a call other than FlushAll flushes only groups with at least
    100 log entries and groups whose first operation was accepted longer than the flush interval ago. *)
Theorem C67_not_flushed_early : forall ord md5 clk cf, proper_clock clk -> forall st h ev,
  rreach ord md5 clk cf st (h ++ [ev]) -> rv_call ev <> RFlushAll ->
  (exists ks, Z.of_nat (length ks) <= ro_entries (rc_options cf) /\ forall o, o ∈ accepted (h ++ [ev]) -> rsig ord md5 o ∈ ks) ->
  exists gs, Forall2 (merges ord md5 cf) gs (ops_of (rres_flushed (rv_result ev))) /\
    Forall (fun g => (100 <= logs_in g)%nat \/
      exists o r ev0 i j idle, g = o :: r /\ ev0 ∈ h ++ [ev] /\ o ∈ accepted_ops ev0 /\
        (rv_from ev0 <= i < rv_to ev0)%nat /\ (rv_from ev <= j < rv_to ev)%nat /\
        cycles_of_ms (ro_flush_ms (rc_options cf)) = Ok (Some idle) /\ idle < clk j - clk i) gs.
Proof. exact not_early. Qed.
Print Assumptions C67_not_flushed_early.
Example C67_example : rp_rreach (rp_st (take 4 rp_calls)) (take 3 (rp_h rp_calls) ++ [rp_ev 3]) /\ rv_call (rp_ev 3) = RFlush /\
  rp_seen (rres_flushed (rv_result (rp_ev 3))) = [[("b", 0%nat)]]%string /\
  forall o, o ∈ accepted (take 3 (rp_h rp_calls) ++ [rp_ev 3]) -> rsig default_order ck_md5 o ∈ [rsig default_order ck_md5 (rp_op "" "a" 0); rsig default_order ck_md5 (rp_op "" "b" 0)].
Proof.
  assert (take 3 (rp_h rp_calls) ++ [rp_ev 3] = rp_h (take 4 rp_calls)) as E by (vm_compute; reflexivity).
  split; [rewrite E; rreaches|]. split; [vm_compute; reflexivity|]. split; [vm_compute; reflexivity|]. rewrite E.
  assert (accepted (rp_h (take 4 rp_calls)) = [rp_op "1" "a" 1; rp_op "2" "b" 0; rp_op "3" "a" 0; rp_op "4" "a" 99; rp_op "5" "a" 2]) as -> by (vm_compute; reflexivity).
  intros o Ho. repeat (apply elem_of_cons in Ho as [->|Ho]; [apply elem_of_list_In; vm_compute; auto|]). destruct (not_elem_of_nil _ Ho).
Qed.
