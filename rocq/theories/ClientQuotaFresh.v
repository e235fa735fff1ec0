(** How old the answers are that callers of Quota are given: proofs for PropsClient7.v. *)
From Verif Require Import Base Proto Signature OpAgg Lru LruSpec Timeout Agg CheckAgg CheckAggSpec QuotaAgg QuotaAggSpec QuotaMove QuotaLife QuotaAggClaims QuotaFresh ReportAgg ReportAggSpec Client ClientSpec ClientInv ClientCalls ClientStage ClientFlush ClientFacts ClientClaims ClientAnswers.
From stdpp Require Import gmap list.
Local Open Scope Z_scope.
Set Implicit Arguments.

Lemma qreach_at_event debug ord md5 clk cf st h n ev : qreach debug ord md5 clk cf st h -> h !! n = Some ev ->
  exists st0 h1 h2, h = h1 ++ ev :: h2 /\ length h1 = n /\ qreach debug ord md5 clk cf st0 h1 /\ returns debug ord md5 clk cf (qv_call ev) st0 (qv_after ev, qv_result ev) /\
    ev = QuotaEvent (qv_call ev) (qv_result ev) (qreadings st0) (qreadings (qv_after ev)) (qv_after ev).
Proof.
  intros R. revert n ev. induction R as [st H|st h call st' res R IH Hs]; intros n ev Hn; [done|].
  apply lookup_app_Some in Hn as [Hn|[Hle Hn]].
  - destruct (IH _ _ Hn) as (st0 & h1 & h2 & -> & Hl & R1 & E). exists st0, h1, (h2 ++ [QuotaEvent call res (qreadings st) (qreadings st') st']). split; [by rewrite <- app_assoc|done].
  - apply list_lookup_singleton_Some in Hn as [Hz <-]. exists st, h, []. split_and!; [done|lia|done|done|done].
Qed.

Section fresh.
Variable debug : bool.
Variable ord : hash_order.
Variable md5 : string -> string.
Variable clk : kind -> nat -> Z.
Variable cf : client_config.
Notation reach := (reach debug ord md5 clk cf).
Implicit Types (w : world) (t : nat) (ths : list (list instr)) (tr : list event).

Lemma quota_told_fresh ths w t c r t0 a q : proper_clock (clk KQuota) -> reach (ths, w) -> w_crash w = None -> told_apart md5 (ag_hq (w_aggs w)) ->
  EDone t c SOk r ∈ w_trace w -> EStart t0 c a ∈ w_trace w -> ap_request a = RqQuota q -> (forall t1 m q, ETransport t1 m (FromCall c) q ∉ w_trace w) ->
  exists t1 n ev n0 ev0, EAgg t1 KQuota n (Some c) ∈ w_trace w /\ (n0 <= n)%nat /\
    ag_hq (w_aggs w) !! n = Some ev /\ ag_hq (w_aggs w) !! n0 = Some ev0 /\ hands_out md5 (qsig md5 q) ev0 /\
    (forall i v, (n0 < i <= n)%nat -> ag_hq (w_aggs w) !! i = Some v -> ~ hands_out md5 (qsig md5 q) v) /\
    (n0 = n \/ (forall i v, (n0 < i <= n)%nat -> ag_hq (w_aggs w) !! i = Some v -> ~ responds md5 (qsig md5 q) v) \/
     exists now before, qduring (clk KQuota) now ev /\ qduring (clk KQuota) before ev0 /\ now - before < refresh_interval_in_cycle (cf_quotas cf)) /\
    (forall t2, EAggReturn t2 KQuota n0 ∈ w_trace w -> (forall t', EDisconnect t' KQuota ∉ w_trace w) ->
       exists q', qsig md5 q' = qsig md5 q /\ ECallback t2 KQuota n0 (RqQuota q') ∈ w_trace w).
Proof.
  intros Hclk R Hc A H H0 Ha Hno. destruct (has_transport cf a) eqn:Ht.
  2:{ destruct (answer R H) as (a' & l & S & Hl). destruct (settled_start S) as (t' & l' & El).
      destruct (start_unique (t:=t') (c:=c) (a:=a') (t':=t0) (a':=a) R) as [_ ->]; [|done|].
      { eapply story_elem; [exact Hl|]. rewrite El. constructor. } inversion S; congruence. }
  destruct (answer_now R H H0 Ht Hno) as (t1 & n & rs & H1 & Hn & Es & ->). rewrite Ha in H1, Hn. cbn [kind_of agg_call_of calls] in H1, Hn.
  apply list_lookup_fmap_Some in Hn as (ev & Hn & [= Hcall ->]). destruct (reach_sequential R) as (_ & Rc & _).
  destruct (qreach_at_event _ Rc Hn) as (st0 & h1 & h2 & Eh & Hl & R1 & Hst & Hev). rewrite <- Hcall in Hst. cbn [quota_res rs_status rs_reply] in *.
  assert (Deliver : forall n0 ev0, ag_hq (w_aggs w) !! n0 = Some ev0 -> hands_out md5 (qsig md5 q) ev0 ->
    forall t2, EAggReturn t2 KQuota n0 ∈ w_trace w -> (forall t', EDisconnect t' KQuota ∉ w_trace w) -> exists q', qsig md5 q' = qsig md5 q /\ ECallback t2 KQuota n0 (RqQuota q') ∈ w_trace w).
  { intros n0 ev0 E0 Ho t2 Hret Hdis. destruct (returned_given R Hc Hret) as (call & rr & Ec & Hh). specialize (Hh Hdis). cbn [calls] in Ec.
    rewrite list_lookup_fmap, E0 in Ec. cbn in Ec. injection Ec as _ <-. apply Exists_exists in Ho as (it & Hit & Hs). exists it. split; [done|].
    apply (handled_elem KQuota n0 (w_trace w) t2 (Gave (RqQuota it))). rewrite Hh. apply elem_of_app. left. apply elem_of_list_fmap. exists (RqQuota it). split; [done|].
    cbn. by apply elem_of_list_fmap_1. }
  destruct (Z.le_gt_cases (qp_entries (qf_options (cf_quotas cf))) 0) as [Hm|Hm].
  { exfalso. destruct (reach_off Hm R1) as [Hoff _]. destruct Hst as [fuel Hs]. cbn [qstep] in Hs. unfold Quota in Hs. rewrite Hoff in Hs.
    destruct (negb _); [injection Hs as _ Hs; rewrite <- Hs in Es; done|]. destruct (qr_operation q); injection Hs as _ Hs; rewrite <- Hs in Es; done. }
  assert (well_addressed (cf_quotas cf) q) as Hw by (destruct (quota_addressed Hst) as [?|[Er _]]; [done|by rewrite Er in Es]).
  assert (told_apart md5 h1) as A1 by (intros e1 e2 q1 q2 I1 I2; apply A; rewrite Eh; set_solver).
  assert (Fut : forall (P : quota_event -> Prop) g1 v0 g2, h1 = g1 ++ v0 :: g2 -> Forall (fun v => ~ P v) g2 -> ~ P ev ->
    forall i v, (length g1 < i <= n)%nat -> ag_hq (w_aggs w) !! i = Some v -> ~ P v).
  { intros P g1 v0 g2 -> F Fe i v Hi Hv. rewrite Eh in Hv. destruct (decide (i = n)) as [->|Hne].
    - rewrite <- Hl in Hv. rewrite list_lookup_middle in Hv by done. by injection Hv as <-.
    - rewrite lookup_app_l in Hv by lia. rewrite lookup_app_r in Hv by lia. destruct (i - length g1)%nat as [|j] eqn:Ej; [lia|]. cbn in Hv.
      rewrite Forall_forall in F. apply F. by eapply elem_of_list_lookup_2. }
  destruct (decide (Exists (fun it => qsig md5 it = qsig md5 q) (qres_flushed (qv_result ev)))) as [Ho|Ho].
  { exists t1, n, ev, n, ev. split_and!; try done; [intros; lia|by left|by apply Deliver with (ev0 := ev)]. }
  destruct (quota_fresh Hclk Hm R1 A1 Hst Hw) as [?|(g1 & v0 & g2 & Eg & Hv0 & F1 & F2)]; [done|].
  assert (ag_hq (w_aggs w) !! length g1 = Some v0) as Hn0. { rewrite Eh, Eg, <- app_assoc. cbn [app]. by rewrite list_lookup_middle. }
  exists t1, n, ev, (length g1), v0. split; [done|]. split; [rewrite <- Hl, Eg, app_length; cbn; lia|]. split_and!; try done.
  - apply (Fut _ _ _ _ Eg F1). exact Ho.
  - right. destruct F2 as [F2|(now & before & D1 & D2 & D3)]; [left|right].
    + apply (Fut _ _ _ _ Eg F2). intros (q1 & r1 & E1 & _). congruence.
    + exists now, before. split_and!; try done. destruct D1 as (i & Hi & ->). exists i. split; [|done]. rewrite Hev. exact Hi.
  - by apply Deliver with (ev0 := v0).
Qed.
End fresh.
