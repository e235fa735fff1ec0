(** C89: the quota aggregator with the cache as it is in memory, and its deleter calling back into that cache. *)
From Verif Require Import Base Proto Signature OpAgg OpAggSpec Lru LruSpec Timeout Agg QuotaAgg QuotaAggSpec LinkedList PLru PAgg PQuota PQuotaFuel PQuotaProofs PQuotaBack Client ClientInv PropsQuota.
From stdpp Require Import gmap list.
Local Open Scope Z_scope.

(** For concrete runs. *)
Fixpoint pq_play clk cf (calls : list quota_call) (p : pquota_agg) (rs : list (quota_call * quota_result)) : option (pquota_agg * list (quota_call * quota_result)) :=
  match calls with
  | [] => Some (p, rs)
  | call :: calls => match p_qstep true default_order qk_md5 clk cf qk_fuel call p with Ok r => pq_play clk cf calls r.1 (rs ++ [(call, r.2)]) | _ => None end
  end.
Lemma pq_history clk cf calls p p' rs rs' : p_quota_history true default_order qk_md5 clk cf p rs -> pq_play clk cf calls p rs = Some (p', rs') ->
  p_quota_history true default_order qk_md5 clk cf p' rs'.
Proof.
  revert p rs. induction calls as [|call calls IH]; intros p rs H; cbn [pq_play]; [by intros [= <- <-]|].
  destruct (p_qstep _ _ _ _ _ _ _ _) as [[p1 r]| | |] eqn:E; try done. apply IH. econstructor; [exact H|]. by exists qk_fuel.
Qed.

(** ** C89 *)
(** A sequence of calls that returns when the cache is a list returns with the same results when it is threaded through
    pointers, so that all that was proved of the results (C48-C53) holds of the pointers' program; *)
Theorem C89_same_results : forall debug ord md5 clk cf st h, qreach debug ord md5 clk cf st h ->
  exists p, p_quota_history debug ord md5 clk cf p (qtold h).
Proof. intros * R. destruct (quota_same R) as (p & H & _). by exists p. Qed.
Print Assumptions C89_same_results.
(** that program has no other results for these calls, however deeply its deleter may nest; *)
Theorem C89_deterministic : forall debug ord md5 clk cf p rs p' rs', p_quota_history debug ord md5 clk cf p rs -> p_quota_history debug ord md5 clk cf p' rs' ->
  rs.*1 = rs'.*1 -> p' = p /\ rs' = rs.
Proof. intros * H H'. by apply (history_same H). Qed.
Print Assumptions C89_deterministic.
(** and the next call, if there is room for what it may insert, has a result in one exactly when it has it in the other. *)
Theorem C89_next_call : forall debug ord md5 clk cf, proper_clock clk -> forall st h p call,
  qreach debug ord md5 clk cf st h -> p_quota_history debug ord md5 clk cf p (qtold h) ->
  (forall q, call = QQuota q -> well_addressed cf q -> 0 < qp_entries (qf_options cf) -> room md5 clk cf st h q) ->
  forall res, (exists p', p_returns debug ord md5 clk cf call p (p', res)) <-> (exists st', returns debug ord md5 clk cf call st (st', res)).
Proof. intros * Hclk * R H. by apply step_same. Qed.
Print Assumptions C89_next_call.

(** Such a call follows no null or dangling pointer and deletes nothing twice, at any depth of nesting, and it returns.
    The only exception is an operation that, merged with earlier ones, is undefined. *)
Theorem C89_no_bad_pointer_partial : forall debug ord md5 clk cf, proper_clock clk -> forall st h p call,
  qreach debug ord md5 clk cf st h -> p_quota_history debug ord md5 clk cf p (qtold h) ->
  (forall q, call = QQuota q -> well_addressed cf q -> 0 < qp_entries (qf_options cf) -> room md5 clk cf st h q) ->
  (exists r, p_returns debug ord md5 clk cf call p r /\
     forall depth, p_qstep debug ord md5 clk cf depth call p = OutOfFuel \/ p_qstep debug ord md5 clk cf depth call p = Ok r) \/
  (exists q first rest, call = QQuota q /\ (first :: rest) `sublist_of` asked h ++ [qop_get (qr_operation q)] /\
     forall o, quota_aggregate debug ord first rest <> Ok o).
Proof. intros * Hclk * R H. by apply quota_complete. Qed.
Print Assumptions C89_no_bad_pointer_partial.

(** Without room the full claim is false: here an entry is deleted by a call nested in one that goes on using it. *)
Theorem C89_no_bad_pointer_refuted : exists clk cf p rs q depth, proper_clock clk /\ 0 < qp_entries (qf_options cf) /\
  p_quota_history true default_order qk_md5 clk cf p rs /\ well_addressed cf q /\
  p_qstep true default_order qk_md5 clk cf depth (QQuota q) p = UB UseAfterFree.
Proof.
  set (cf := qk_cf (QuotaOptions 1 1000 1000)). set (clk := qk_table (replicate 8 0 ++ [2000000])). exists clk, cf.
  destruct (PNewQuotaAggregator default_order clk cf) as [p0| | |] eqn:E0; [|by vm_compute in E0..].
  destruct (pq_play clk cf [QQuota (qk_a "1" 1)] p0 []) as [[p rs]|] eqn:E.
  2: { exfalso. assert (match PNewQuotaAggregator default_order clk cf with Ok p0 => pq_play clk cf [QQuota (qk_a "1" 1)] p0 [] | _ => None end = None) as X by (by rewrite E0). by vm_compute in X. }
  exists p, rs, (qk_req "2" "b" 1), 12%nat. split; [apply qk_sorted; repeat constructor; cbn; lia|]. split; [done|].
  split; [eapply pq_history; [|exact E]; by constructor|]. split; [done|].
  assert (match PNewQuotaAggregator default_order clk cf with Ok p0 => match pq_play clk cf [QQuota (qk_a "1" 1)] p0 [] with Some x => p_qstep true default_order qk_md5 clk cf 12 (QQuota (qk_req "2" "b" 1)) x.1 | None => Abort end | _ => Abort end = UB UseAfterFree) as X by (vm_compute; reflexivity).
  by rewrite E0, E in X.
Qed.
Print Assumptions C89_no_bad_pointer_refuted.

(** Between calls the memory is tidy: no broken link, no leaked element or object, nothing left pinned. *)
Theorem C89_memory : forall debug ord md5 clk cf, proper_clock clk -> forall st h p x,
  qreach debug ord md5 clk cf st h -> p_quota_history debug ord md5 clk cf p (qtold h) -> pqa_cache p = Some x -> exists rec, tidy x (p_vals (pqa_pool p)) rec.
Proof. intros * Hclk *. by apply quota_tidy. Qed.
Print Assumptions C89_memory.

(** After any such calls the aggregator can be destroyed; the cache's destructor finds it empty. *)
Theorem C89_destroyed : forall debug ord md5 clk cf, proper_clock clk -> forall st h p,
  qreach debug ord md5 clk cf st h -> p_quota_history debug ord md5 clk cf p (qtold h) -> exists depth, PDestroyQuota ord clk cf depth p = Ok tt.
Proof. intros * Hclk *. by apply quota_destroyed. Qed.
Print Assumptions C89_destroyed.

(** The calls a client makes on its quota aggregator, whatever its threads do, have the results they had. *)
Theorem C89_client : forall debug ord md5 clk cf ths w, reach debug ord md5 clk cf (ths, w) ->
  exists p, p_quota_history debug ord md5 (clk KQuota) (cf_quotas cf) p (qtold (ag_hq (w_aggs w))).
Proof. intros * R. destruct (reach_sequential R) as (_ & R2 & _). destruct (quota_same R2) as (p & H & _). by exists p. Qed.
Print Assumptions C89_client.

(** "a" and "b" are asked for and answered, and "a" again, which accumulates; a flush 1.5 s later takes both off the
    list, and the deleter puts both back, as new elements (at addresses 3 and 4), and hands out what "a" has accumulated. *)
Definition pq_calls : list quota_call :=
  [QQuota (qk_req "1" "a" 1); QResponse (qk_req "1" "a" 1) qk_ok; QQuota (qk_req "2" "b" 1); QResponse (qk_req "2" "b" 1) qk_ok; QQuota (qk_req "3" "a" 5); QFlushC].
Definition pq_clk : nat -> Z := qk_table (replicate 11 0 ++ [1500000]).
Definition pq_cf := qk_cf qk_default_options.
Definition pq_run := match PNewQuotaAggregator default_order pq_clk pq_cf with Ok p => pq_play pq_clk pq_cf pq_calls p [] | _ => None end.
Definition pq_amount (q : quota_request) : string * list Z :=
  let o := qop_get (qr_operation q) in (qo_method o, s ← qo_metrics o; v ← mvs_values s; match mv_value v with VInt64 n => [n] | _ => [] end).
Definition pq_seen (r : option (pquota_agg * list (quota_call * quota_result))) :=
  match r with
  | Some (p, rs) => ((fun q => pq_amount <$> qres_flushed q.2) <$> rs, match pqa_cache p with Some x => forward (p_links x) 0 | None => None end,
      (map_to_list (p_vals (pqa_pool p))).*1, PDestroyQuota default_order pq_clk pq_cf 5 p)
  | None => ([], None, [], Abort)
  end.
Example C89_example : proper_clock pq_clk /\ (exists p rs, pq_run = Some (p, rs) /\ p_quota_history true default_order qk_md5 pq_clk pq_cf p rs /\ rs.*1 = pq_calls) /\
  (exists st h, qreach true default_order qk_md5 pq_clk pq_cf st h /\ qv_call <$> h = pq_calls) /\
  pq_seen pq_run = ([[("a"%string, [1])]; []; [("b"%string, [1])]; []; []; [("a"%string, [5])]], Some [4; 3]%nat, [0; 1]%nat, Ok tt).
Proof.
  split; [apply qk_sorted; repeat constructor; cbn; lia|]. split; [|split].
  - destruct (PNewQuotaAggregator default_order pq_clk pq_cf) as [p0| | |] eqn:E0; [|by vm_compute in E0..].
    destruct pq_run as [[p rs]|] eqn:E; [|by vm_compute in E]. exists p, rs. split; [done|]. split.
    + unfold pq_run in E. rewrite E0 in E. eapply pq_history; [|exact E]. by constructor.
    + apply (f_equal (fun o => match o with Some y => y.2.*1 | None => [] end)) in E. cbn [snd] in E. rewrite <- E. vm_compute. reflexivity.
  - destruct (qk_run default_order qk_md5 pq_clk pq_cf pq_calls) as [x|] eqn:E; [|by vm_compute in E]. exists x.1, x.2.
    split; [by apply (qk_reach _ _ _ _ _ _ E)|]. apply (f_equal (fun o => match o with Some y => qv_call <$> y.2 | None => [] end)) in E. rewrite <- E. vm_compute. reflexivity.
  - vm_compute. reflexivity.
Qed.
