(** How long accepted reports wait in the client: proofs for PropsClient8.v. *)
From Verif Require Import Base Proto Signature OpAgg OpAggSpec Lru LruSpec Timeout Agg CheckAgg CheckAggSpec QuotaAgg QuotaAggSpec ReportAgg ReportAggSpec ReportAggClaims Client ClientSpec ClientInv ClientCalls ClientStage ClientFlush ClientDrain ClientFacts ClientClaims ClientTick ClientWhole ClientQuota.
From stdpp Require Import gmap list.
Local Open Scope Z_scope.
Set Implicit Arguments.

Section reports.
Variable debug : bool.
Variable ord : hash_order.
Variable md5 : string -> string.
Variable clk : kind -> nat -> Z.
Variable cf : client_config.
Notation reach := (reach debug ord md5 clk cf).
Implicit Types (w : world) (t : nat) (ths : list (list instr)) (tr : list event).

Lemma reports_in_time ths w ev idle : proper_clock (clk KReport) -> reach (ths, w) -> w_crash w = None -> nothing_running ths -> undisturbed KReport (w_trace w) ->
  last (ag_hr (w_aggs w)) = Some ev -> looks ev -> cycles_of_ms (ro_flush_ms (rc_options (cf_reports cf))) = Ok (Some idle) ->
  exists taken refused gs os pending, requests_of cf KReport (w_trace w) ≡ₚ taken ++ sent_for_calls KReport (w_trace w) ++ refused /\
    Forall2 (merges ord md5 (cf_reports cf)) gs os /\ report_operations (sent_by_flush KReport (w_trace w)) ≡ₚ os /\
    report_operations taken ≡ₚ concat gs ++ pending /\
    (forall o, o ∈ pending -> exists t c a q n v i, EStart t c a ∈ w_trace w /\ ap_request a = RqReport q /\ o ∈ rr_operations q /\
       EAgg t KReport n (Some c) ∈ w_trace w /\ ag_hr (w_aggs w) !! n = Some v /\ (rv_from v <= i < rv_to v)%nat /\
       clk KReport (rv_from ev) - clk KReport i <= idle) /\
    forall q, q ∈ refused -> exists t c a t' s r, EStart t c a ∈ w_trace w /\ ap_request a = q /\ EDone t' c s r ∈ w_trace w /\ s <> SOk /\ s <> SNotFound.
Proof.
  intros Hclk R Hc Hn Hu Hl Hk Hi. destruct (reach_sequential R) as (_ & _ & Rr).
  apply last_Some in Hl as [h Eh]. rewrite Eh in Rr.
  destruct (flushed_in_time Hclk _ _ Rr Hk Hi) as (gs & pending & F & P & Sub). rewrite <- Eh in F, P, Sub.
  destruct (none_dropped R Hc Hn Hu) as [_ Hs].
  exists (answered_with KReport is_ok (w_aggs w)), (answered_with KReport other_status (w_aggs w)), gs, (ops_of (rflushed (ag_hr (w_aggs w)))), pending. split.
  { rewrite (all_forwarded KReport R Hc Hn). by rewrite (all_asked KReport R Hc Hn). }
  split; [done|]. split.
  { unfold report_operations. rewrite Hs, report_items. unfold ops_of. clear. induction (rflushed (ag_hr (w_aggs w))) as [|q qs IH]; [done|]. cbn [fmap list_fmap]. rewrite !bind_cons. by rewrite IH. }
  split; [by rewrite <- accepted_calls, P|]. split.
  - intros o Ho. assert (o ∈ accepted (filter (reads_since (clk KReport) (clk KReport (rv_from ev) - idle)) (ag_hr (w_aggs w)))) as Hin by (by eapply elem_of_submseteq).
    apply elem_of_list_bind in Hin as (v & Hv & [Hsince Hh]%elem_of_list_filter). apply elem_of_list_lookup in Hh as [n Hn'].
    unfold accepted_ops in Hv. destruct (rv_call v) as [q| |] eqn:Ec; [|by apply elem_of_nil in Hv..].
    assert (calls KReport (w_aggs w) !! n = Some (OnReport (RReport q), report_res (rv_result v))) as Hcall by (cbn [calls]; rewrite list_lookup_fmap, Hn'; cbn; by rewrite Ec).
    destruct (reach_asked_for _ _ R Hcall eq_refl) as (t2 & c' & a' & J1 & J2 & J3 & J4).
    apply Exists_exists in Hsince as (i & Hi1 & Hi2). apply elem_of_seq in Hi1.
    exists t2, c', a', q, n, v, i. split_and!; try done; [| |lia|lia|lia].
    + destruct (ap_request a'); cbn in J4; congruence.
    + destruct (rres_status (rv_result v)); by try apply elem_of_nil in Hv.
  - intros q Hq. eapply told in Hq as (t1 & c & a & t' & s & r & H1 & H2 & H3 & H4); [|exact R|done|done|by intros []].
    exists t1, c, a, t', s, r. by destruct s.
Qed.
End reports.
