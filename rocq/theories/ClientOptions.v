(** The options of the client, and the interval of its periodic timer. *)
From Verif Require Import Base Proto Signature OpAgg Lru Timeout Agg CheckAgg QuotaAgg ReportAgg Client.
From stdpp Require Import gmap list.
Local Open Scope Z_scope.
Set Implicit Arguments.

(** include/aggregation_options.h:33-60 QuotaAggregationOptions *)
Definition default_quota_options : quota_options := QuotaOptions 10000 1000 600000.
Definition NewQuotaOptions (entries refresh expiration : Z) : quota_options := QuotaOptions entries refresh expiration.
(** include/aggregation_options.h:63-95 CheckAggregationOptions; [flush + 1] is int arithmetic *)
Definition default_check_options : check_options := CheckOptions 10000 500 1000.
Definition NewCheckOptions (entries flush expiration : Z) : outcome check_options :=
  let! next := add32 flush 1 in Ok (CheckOptions entries flush (Z.max next expiration)).
(** include/aggregation_options.h:98-119 ReportAggregationOptions *)
Definition default_report_options : report_options := ReportOptions 10000 1000.
Definition NewReportOptions (entries flush : Z) : report_options := ReportOptions entries flush.

(** Specification: the interval at which the cache needs a Flush.  A cache is enabled if it may have entries; a
    negative interval means that its entries do not expire. *)
Definition needs_flush (cf : client_config) (k : kind) (ms : Z) : Prop :=
  0 <= ms /\
  match k with
  | KCheck => 0 < co_entries (cf_check cf) /\ ms = co_expiration_ms (cf_check cf)
  | KQuota => 0 < qp_entries (cf_quota cf) /\ ms = qp_refresh_ms (cf_quota cf)
  | KReport => 0 < ro_entries (cf_report cf) /\ ms = ro_flush_ms (cf_report cf)
  end.
(** The options hold values of type int. *)
Definition int_options (cf : client_config) : Prop :=
  co_expiration_ms (cf_check cf) <= int32_max /\ qp_refresh_ms (cf_quota cf) <= int32_max /\ ro_flush_ms (cf_report cf) <= int32_max.

Section options.
Variable ord : hash_order.
Variable clk : kind -> nat -> Z.
Variable cf : client_config.

Lemma check_expiration entries flush expiration o : NewCheckOptions entries flush expiration = Ok o ->
  co_entries o = entries /\ co_flush_ms o = flush /\ flush + 1 <= co_expiration_ms o /\ expiration <= co_expiration_ms o /\
  (co_expiration_ms o = flush + 1 \/ co_expiration_ms o = expiration).
Proof.
  unfold NewCheckOptions, add32. destruct (in_int32 (flush + 1)); [|done]. intros [= <-]. cbn. repeat split; lia.
Qed.
Lemma check_options_ok entries flush expiration : int32_min <= flush < int32_max -> exists o, NewCheckOptions entries flush expiration = Ok o.
Proof.
  intros H. unfold NewCheckOptions, add32, in_int32. unfold int32_min, int32_max in *. destruct (Z.leb_spec (-2147483648) (flush + 1)); [|lia].
  destruct (Z.leb_spec (flush + 1) 2147483647); [|lia]. cbn. eauto.
Qed.

Lemma check_interval c : NewCheckAggregator ord (clk KCheck) (cf_checks cf) = Ok c ->
  CheckAgg.GetNextFlushInterval (cf_checks cf) c = if 0 <? co_entries (cf_check cf) then co_expiration_ms (cf_check cf) else -1.
Proof.
  unfold NewCheckAggregator. cbn [cf_checks cc_options]. destruct (0 <? _); [|by intros [= <-]]. destruct (cycles_of_ms _); cbn [obind]; try done.
  destruct (SetTimeout _ _ _ _ _ _); cbn [obind]; try done. by intros [= <-].
Qed.
Lemma quota_interval q : NewQuotaAggregator ord (clk KQuota) (cf_quotas cf) = Ok q ->
  QGetNextFlushInterval (cf_quotas cf) q = if 0 <? qp_entries (cf_quota cf) then qp_refresh_ms (cf_quota cf) else -1.
Proof.
  unfold NewQuotaAggregator. cbn [cf_quotas qf_options]. destruct (0 <? _); [|by intros [= <-]]. destruct (cycles_of_ms _); cbn [obind]; try done.
  destruct (SetTimeout _ _ _ _ _ _); cbn [obind]; try done. by intros [= <-].
Qed.
Lemma report_interval r : NewReportAggregator ord (clk KReport) (cf_reports cf) = Ok r ->
  ReportAgg.GetNextFlushInterval (cf_reports cf) r = if 0 <? ro_entries (cf_report cf) then ro_flush_ms (cf_report cf) else -1.
Proof.
  unfold NewReportAggregator. cbn [cf_reports rc_options]. destruct (0 <? _); [|by intros [= <-]]. destruct (cycles_of_ms _); cbn [obind]; try done.
  destruct (SetTimeout _ _ _ _ _ _); cbn [obind]; try done. by intros [= <-].
Qed.
Lemma next_flush_interval a : new_aggs ord clk cf = Ok a -> int_options cf ->
  (forall k ms, needs_flush cf k ms -> GetNextFlushInterval cf a <= ms) /\
  (0 <= GetNextFlushInterval cf a) /\
  ((exists k, needs_flush cf k (GetNextFlushInterval cf a)) \/ (GetNextFlushInterval cf a = int32_max /\ forall k ms, ~ needs_flush cf k ms)).
Proof.
  unfold new_aggs. destruct (NewCheckAggregator _ _ _) as [c| | |] eqn:E1; try done. cbn [obind].
  destruct (NewQuotaAggregator _ _ _) as [q| | |] eqn:E2; try done. cbn [obind]. destruct (NewReportAggregator _ _ _) as [r| | |] eqn:E3; try done. cbn [obind].
  intros [= <-] (I1 & I2 & I3). unfold GetNextFlushInterval. cbn [ag_check ag_quota ag_report].
  rewrite (check_interval E1), (quota_interval E2), (report_interval E3). clear E1 E2 E3 c q r. unfold int32_max in *.
  set (x := if 0 <? co_entries _ then _ else _). set (y := if 0 <? qp_entries _ then _ else _). set (z := if 0 <? ro_entries _ then _ else _).
  assert (forall ms, needs_flush cf KCheck ms <-> 0 <= ms /\ x = ms) as Hx. { intros ms. subst x. unfold needs_flush. destruct (Z.ltb_spec 0 (co_entries (cf_check cf))); split; lia. }
  assert (forall ms, needs_flush cf KQuota ms <-> 0 <= ms /\ y = ms) as Hy. { intros ms. subst y. unfold needs_flush. destruct (Z.ltb_spec 0 (qp_entries (cf_quota cf))); split; lia. }
  assert (forall ms, needs_flush cf KReport ms <-> 0 <= ms /\ z = ms) as Hz. { intros ms. subst z. unfold needs_flush. destruct (Z.ltb_spec 0 (ro_entries (cf_report cf))); split; lia. }
  assert (x <= 2147483647 /\ y <= 2147483647 /\ z <= 2147483647) as (Bx & By & Bz).
  { subst x y z. repeat (destruct (0 <? _)); lia. }
  clearbody x y z. set (m := Z.min _ _). assert (0 <= m /\ (0 <= x -> m <= x) /\ (0 <= y -> m <= y) /\ (0 <= z -> m <= z) /\ ((0 <= x /\ m = x) \/ (0 <= y /\ m = y) \/ (0 <= z /\ m = z) \/ (m = 2147483647 /\ x < 0 /\ y < 0 /\ z < 0))) as (M1 & M2 & M3 & M4 & M5).
  { subst m. destruct (Z.ltb_spec x 0), (Z.ltb_spec y 0), (Z.ltb_spec z 0); lia. }
  clearbody m. split; [|split; [done|]].
  - intros [] ms H; [apply Hx in H|apply Hy in H|apply Hz in H]; lia.
  - destruct M5 as [H|[H|[H|H]]]; [left; exists KCheck; apply Hx; lia|left; exists KQuota; apply Hy; lia|left; exists KReport; apply Hz; lia|].
    right. split; [lia|]. intros [] ms Hn; [apply Hx in Hn|apply Hy in Hn|apply Hz in Hn]; lia.
Qed.
Lemma timer_runs a : new_aggs ord clk cf = Ok a -> int_options cf -> cf_timer cf = true -> (forall k, ~ needs_flush cf k 0) ->
  exists ms, timer_interval cf a = Some ms /\ 0 < ms /\ (forall k ms', needs_flush cf k ms' -> ms <= ms') /\
    ((exists k, needs_flush cf k ms) \/ (ms = int32_max /\ forall k ms', ~ needs_flush cf k ms')).
Proof.
  intros Ha Hi Ht Hz. destruct (next_flush_interval Ha Hi) as (H1 & H2 & H3). unfold timer_interval. rewrite Ht.
  destruct (Z.ltb_spec 0 (GetNextFlushInterval cf a)) as [Hp|Hp].
  - eexists. split; [reflexivity|]. done.
  - exfalso. assert (GetNextFlushInterval cf a = 0) as E by lia. rewrite E in H3. destruct H3 as [(k & H3)|[H3 _]]; [by apply (Hz k)|done].
Qed.
Lemma timer_none a : new_aggs ord clk cf = Ok a -> int_options cf -> timer_interval cf a = None <-> cf_timer cf = false \/ exists k, needs_flush cf k 0.
Proof.
  intros Ha Hi. destruct (next_flush_interval Ha Hi) as (H1 & H2 & H3). unfold timer_interval. destruct (cf_timer cf); cbn [andb]; [|naive_solver].
  destruct (Z.ltb_spec 0 (GetNextFlushInterval cf a)) as [Hp|Hp]; split.
  - done.
  - intros [|(k & H)]; [done|]. apply H1 in H. lia.
  - intros _. right. assert (GetNextFlushInterval cf a = 0) as E by lia. rewrite E in H3. by destruct H3 as [|[]].
  - done.
Qed.
End options.
