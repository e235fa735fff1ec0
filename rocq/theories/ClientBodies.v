(** The aggregator calls of the client return. *)
From Verif Require Import Base Proto Signature OpAgg OpAggSpec Lru LruSpec Timeout TimeoutProofs Agg CheckAgg CheckAggSpec QuotaAgg QuotaAggSpec ReportAgg ReportAggSpec Client ClientSpec ClientInv ClientFacts.
From Verif Require CheckAggClaims ReportAggClaims QuotaTerm QuotaAggClaims.
From stdpp Require Import gmap list.
Local Open Scope Z_scope.
Set Implicit Arguments.

Section bodies.
Variable debug : bool.
Variable ord : hash_order.
Variable md5 : string -> string.
Variable clk : kind -> nat -> Z.
Variable cf : client_config.
Notation reach := (reach debug ord md5 clk cf).
Notation agg_step := (agg_step debug ord md5 clk cf).
Hypothesis Hclk : forall k, proper_clock (clk k).

(** Why a call for the user's request may not return: operations cannot be merged, or the quota cache is full. *)
Definition no_sum (kinds : option (gmap string metric_kind)) (ops : list operation) : Prop :=
  exists first rest, (first :: rest) `sublist_of` ops /\ forall x, aggregate ord md5 kinds first rest <> Ok x.
Definition no_quota_sum (ops : list quota_operation) : Prop :=
  exists first rest, (first :: rest) `sublist_of` ops /\ forall x, quota_aggregate debug ord first rest <> Ok x.
Definition obstacle (a : aggs) (call : agg_call) : Prop :=
  match call with
  | OnCheck (CCheck q) => no_sum (cf_kinds cf) (all_checked (ag_hc a) ++ [op_get (cr_operation q)])
  | OnReport (RReport q) => no_sum (cf_kinds cf) (accepted (ag_hr a) ++ rr_operations q)
  | OnQuota (QQuota q) => no_quota_sum (asked (ag_hq a) ++ [qop_get (qr_operation q)])
  | _ => False
  end.
Definition has_room (a : aggs) (call : agg_call) : Prop :=
  forall q, call = OnQuota (QQuota q) -> well_addressed (cf_quotas cf) q -> 0 < qp_entries (cf_quota cf) -> room md5 (clk KQuota) (cf_quotas cf) (ag_quota a) (ag_hq a) q.
Lemma body_returns ths w call : reach (ths, w) -> has_room (w_aggs w) call ->
  (exists fuel a r, agg_step fuel call (w_aggs w) = Ok (a, r)) \/ obstacle (w_aggs w) call.
Proof.
  intros R Hr. destruct (reach_sequential R) as (S1 & S2 & S3). unfold Client.agg_step. destruct call as [c|c|c].
  - destruct (CheckAggClaims.calls_complete (Hclk KCheck) c S1) as [(r & ->)|(q & first & rest & -> & H1 & H2)]; [left|right].
    + exists 0%nat. cbn [obind]. eauto.
    + exists first, rest. split; [exact H1|exact H2].
  - assert ((exists r, returns debug ord md5 (clk KQuota) (cf_quotas cf) c (ag_quota (w_aggs w)) r) \/ obstacle (w_aggs w) (OnQuota c)) as [([st r] & fuel & H)|H]; [|left|by right].
    + destruct c as [q| | |]; try (left; eapply QuotaTerm.other_calls; [apply Hclk|exact S2|done]).
      destruct (QuotaTerm.quota_returns (q := q) (Hclk KQuota) S2) as [H|(first & rest & H1 & H2)]; [intros; by apply Hr|by left|right].
      exists first, rest. split; [exact H1|exact H2].
    + exists fuel. rewrite H. cbn [obind]. eauto.
  - destruct (ReportAggClaims.calls_complete (Hclk KReport) c S3) as [(r & ->)|(q & first & rest & -> & H1 & H2)]; [left|right].
    + exists 0%nat. cbn [obind]. eauto.
    + exists first, rest. split; [exact H1|exact H2].
Qed.
End bodies.
