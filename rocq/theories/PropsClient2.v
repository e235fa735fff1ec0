(** C59-C63, C68-C72: liveness, destruction, options, locks and the order of calls.  The vocabulary is in ClientSpec.v
    (ClientOptions.v for the options, ClientBodies.v for the reasons why an aggregator call may not return). *)
From Verif Require Import Base Proto Signature OpAgg Lru LruSpec Timeout TimeoutProofs Agg CheckAgg CheckAggSpec QuotaAgg QuotaAggSpec ReportAgg ReportAggSpec.
From Verif Require Import Client ClientSpec ClientLive ClientFlush ClientEnd ClientDrain ClientInv ClientFacts ClientCache ClientQuiet ClientBodies ClientOptions ClientCrash ClientClaims PropsCheck PropsQuota PropsReport ClientRun PropsClient.
From stdpp Require Import gmap list.
Local Open Scope Z_scope.

Lemma cl_table ts : StronglySorted Z.le ts -> Forall (fun t => 0 <= t) ts -> forall k : kind, proper_clock ((fun _ => table_clock ts) k : nat -> Z).
Proof. intros H1 H2 k. by apply sorted_table. Qed.

(** ** C59 *)
(** Unless the quota transport completes a flushed request before it returns, no thread is ever stuck: as long as the
    aggregator calls return, every thread can go on, perhaps after others have. *)
Theorem C59_no_deadlock_partial : forall debug ord md5 clk cf ths w t st, reach debug ord md5 clk cf (ths, w) -> w_crash w = None ->
  bodies_return debug ord md5 clk cf ths w -> ~ quota_flush_in_place (w_trace w) -> ths !! t = Some st -> st <> [] -> live debug ord md5 clk cf ths w t.
Proof. intros * R Hc Hb Hq. apply all_live; try done. by eapply no_self_deadlock. Qed.
Print Assumptions C59_no_deadlock_partial.
(** Whatever the transport does, a deadlock needs a thread that flushes a quota item while it holds the mutex for that. *)
Theorem C59_only_one_deadlock_partial : forall debug ord md5 clk cf ths w, reach debug ord md5 clk cf (ths, w) -> w_crash w = None ->
  bodies_return debug ord md5 clk cf ths w ->
  (forall t, ~ exists n q rest, ths !! t = Some (IFlush KQuota n q :: rest) /\ w_callback w KQuota = Some t) ->
  forall t st, ths !! t = Some st -> st <> [] -> live debug ord md5 clk cf ths w t.
Proof. intros * R Hc Hb Hd t st. by apply all_live. Qed.
Print Assumptions C59_only_one_deadlock_partial.
(** The aggregator calls return if the quota cache has room, unless operations cannot be merged. *)
Theorem C59_aggregator_calls_return : forall debug ord md5 clk cf, (forall k, proper_clock (clk k)) -> forall ths w call,
  reach debug ord md5 clk cf (ths, w) -> has_room md5 clk cf (w_aggs w) call ->
  (exists fuel a r, agg_step debug ord md5 clk cf fuel call (w_aggs w) = Ok (a, r)) \/ obstacle debug ord md5 cf (w_aggs w) call.
Proof. intros * H ths w call. by apply body_returns. Qed.
Print Assumptions C59_aggregator_calls_return.
(** The default options; the quota transport completes in place.  The third quota call of the same thread comes to wait
    for the mutex that the thread itself holds, and nothing that happens later makes it go on. *)
Definition cl_in_place (a : api) : list act := [Do 0 (Call a); Run 0 5; Do 0 Go; Do 0 Go; Do 0 (InPlace SOk (RpQuota qk_ok))].
Definition cl_lock_clk (k : kind) : nat -> Z := match k with KQuota => table_clock (replicate 10 0 ++ [2000000]) | _ => table_clock [0] end.
Definition cl_lock : list act :=
  [Do 0 Go] ++ cl_in_place (cl_quota "1" "a" 1) ++ cl_fin ++ [Do 0 (Call (cl_quota "2" "a" 2))] ++ cl_fin ++ cl_in_place (cl_quota "3" "b" 1) ++ [Run 0 100].
Definition cl_lock_s := after cl_lock_clk cl_cf cl_lock.
Theorem C59_no_deadlock_refuted : exists clk cf ths w t i rest c, (forall k, proper_clock (clk k)) /\
  reach true default_order ck_md5 clk cf (ths, w) /\ w_crash w = None /\ bodies_return true default_order ck_md5 clk cf ths w /\
  ths !! t = Some (i :: rest) /\ IReturn c ∈ rest /\ c ∉ done (w_trace w) /\ ~ live true default_order ck_md5 clk cf ths w t /\
  forall ths' w', later true default_order ck_md5 clk cf (ths, w) (ths', w') -> ths' !! t = Some (i :: rest).
Proof.
  assert (exists n q rest, cl_lock_s.1 = [IFlush KQuota n q :: rest] /\ IReturn 2 ∈ rest) as (n & q & rest & E & Hr).
  { eexists _, _, _. split; [vm_compute; reflexivity|]. repeat (try left; right). }
  assert (reach true default_order ck_md5 cl_lock_clk cl_cf (cl_lock_s.1, cl_lock_s.2)) as R by cl_reaches.
  assert (w_callback cl_lock_s.2 KQuota = Some 0%nat) as Hc by (vm_compute; reflexivity).
  assert (cl_lock_s.1 !! 0%nat = Some (IFlush KQuota n q :: rest)) as Ht by by rewrite E.
  exists cl_lock_clk, cl_cf, cl_lock_s.1, cl_lock_s.2, 0%nat, (IFlush KQuota n q), rest, 2%nat.
  split. { intros []; apply sorted_table; repeat constructor; cbn; lia. }
  split; [exact R|]. split; [vm_compute; reflexivity|]. split. { intros t call u rest' H. rewrite E in H. destruct t as [|t]; [|by destruct t]. by injection H as H. }
  split; [exact Ht|]. split; [exact Hr|]. split. { assert (done (w_trace cl_lock_s.2) = [0; 1]%nat) as -> by (vm_compute; reflexivity). intros H. repeat (apply elem_of_cons in H as [H|H]; [discriminate H|]). by apply elem_of_nil in H. }
  split. { apply self_deadlock_dead. eexists _, _, _. split; [exact Ht|exact Hc]. }
  intros ths' w' L. eapply stuck_forever; [exact R|exact Ht|exact Hc|exact L].
Qed.
Print Assumptions C59_no_deadlock_refuted.
(** Two threads inside calls, one of which waits for the other's mutex. *)
Definition cl_two : list act := [Do 0 Go; Do 1 Go; Do 0 (Call (cl_check "1" "a")); Do 1 (Call (cl_check "2" "a")); Run 0 3; Run 1 2].
Example C59_example : cl_reach ((cl_after cl_two).1, (cl_after cl_two).2) /\ w_crash (cl_after cl_two).2 = None /\ w_cache (cl_after cl_two).2 KCheck = Some 0%nat /\
  bodies_return true default_order ck_md5 cl_clk cl_cf (cl_after cl_two).1 (cl_after cl_two).2 /\ ~ quota_flush_in_place (w_trace (cl_after cl_two).2) /\
  exists call u rest, (cl_after cl_two).1 !! 1%nat = Some (IAgg call u :: rest) /\ cl_step 1 Go (cl_after cl_two) = None.
Proof.
  split; [cl_reaches|]. split; [vm_compute; reflexivity|]. split; [vm_compute; reflexivity|].
  assert (exists rest i1, (cl_after cl_two).1 = [IBody (OnCheck (CCheck (ck_req "1" "a"))) (Some (0%nat, cl_check "1" "a")) :: rest; IAgg (OnCheck (CCheck (ck_req "2" "a"))) (Some (1%nat, cl_check "2" "a")) :: i1]) as (r0 & r1 & E) by (eexists _, _; vm_compute; reflexivity).
  split. { intros t call u rest H. rewrite E in H. destruct t as [|[|t]]; cbn in H; [|by injection H as H|done].
    injection H as <- <- <-. exists 0%nat. eexists _, _. vm_compute. reflexivity. }
  split. { intros (t & i & n & q & t' & s & r & H & _). assert (exists a b, w_trace (cl_after cl_two).2 = [EStart 0 0 a; EStart 1 1 b]) as (a & b & Et) by (eexists _, _; vm_compute; reflexivity).
    rewrite Et in H. clear Et E. inversion H as [|? ? ? H2]; subst. inversion H2 as [|? ? ? H3]; subst. inversion H3. }
  eexists _, _, _. split; [by rewrite E|]. vm_compute. reflexivity.
Qed.

(** ** C60 *)
(** Only the completion of a flushed quota request can use the deleted client. *)
Theorem C60_only_flushed_quota_partial : forall debug ord md5 clk cf ths w i, reach debug ord md5 clk cf (ths, w) -> w_crash w = Some (UseAfterDestroy i) ->
  exists m q s r, i = ICompleted m (FlushedQuota q) s r /\ (exists t k n, ETransport t m (FromFlush k n) (RqQuota q) ∈ w_trace w) /\
    (exists t b, ECompleted t m s r b ∈ w_trace w) /\ exists t, EFreed t ∈ w_trace w.
Proof. intros *. apply dead_crash. Qed.
Print Assumptions C60_only_flushed_quota_partial.
(** The default options.  A quota request is flushed, the client is destroyed, the server answers: the deleted client is used. *)
Definition cl_late : list act :=
  [Do 0 Go; Do 0 (Call (cl_quota "1" "a" 1))] ++ cl_fin ++ [Do 0 Destroy; Run 0 100; Do 0 (Complete 0 SOk (RpQuota qk_ok)); Run 0 100].
Theorem C60_late_completion_refuted : exists clk cf ths w i, (forall k, proper_clock (clk k)) /\ reach true default_order ck_md5 clk cf (ths, w) /\
  w_crash w = Some (UseAfterDestroy i) /\ w_open w = [] /\ exists t t' m s r, EFreed t ∈ w_trace w /\ last (w_trace w) = Some (ECompleted t' m s r false).
Proof.
  exists cl_clk, cl_cf, (cl_after cl_late).1, (cl_after cl_late).2. eexists. split. { apply cl_table; repeat constructor; lia. }
  split; [cl_reaches|]. split; [vm_compute; reflexivity|]. split; [vm_compute; reflexivity|]. exists 0%nat. eexists _, _, _, _. split; [|vm_compute; reflexivity].
  apply elem_of_list_lookup. exists 17%nat. vm_compute. reflexivity.
Qed.
Print Assumptions C60_late_completion_refuted.
(** A late completion of a check is harmless. *)
Definition cl_late_check : list act := cl_first ++ [Do 0 Destroy; Run 0 100; Do 0 (Complete 0 SOk (RpCheck (ck_pos "r")))] ++ cl_fin.
Example C60_example : cl_reach ((cl_after cl_late_check).1, (cl_after cl_late_check).2) /\
  w_crash (cl_after cl_late_check).2 = None /\
  brief <$> drop 11 (w_trace (cl_after cl_late_check).2) =
    [("agg_return", 0); ("disconnect", 0); ("disconnect", 0); ("disconnect", 0); ("freed", 0); ("completed", 0); ("check", 2); ("agg_return", 2); ("done", 0)]%string%nat.
Proof. split; [cl_reaches|]. split; vm_compute; reflexivity. Qed.

(** ** C61 *)
(** If no report call of another thread is under way when the destructor removes the callback, every report operation
    that was accepted has been sent: the operations are split into groups of equal signature, and each group was merged into
    one operation of a report that was sent. *)
Theorem C61_no_report_lost_partial : forall debug ord md5 clk cf, proper_clock (clk KReport) -> forall ths w t l1 l2,
  reach debug ord md5 clk cf (ths, w) -> w_crash w = None -> w_trace w = l1 ++ EDisconnect t KReport :: l2 ->
  (forall t' n u, EAgg t' KReport n u ∈ l1 -> EAggReturn t' KReport n ∈ l1) ->
  dropped KReport (w_trace w) = [] /\ sent_by_flush KReport (w_trace w) ≡ₚ RqReport <$> rflushed (ag_hr (w_aggs w)) /\
  exists gs, Forall2 (merges ord md5 (cf_reports cf)) gs (ops_of (rflushed (ag_hr (w_aggs w)))) /\ split_into ord md5 (accepted (ag_hr (w_aggs w))) gs.
Proof. intros * H *. by apply destroyed_reports. Qed.
Print Assumptions C61_no_report_lost_partial.
(** That is so if the periodic timer has never called the client. *)
Theorem C61_no_timer_partial : forall debug ord md5 clk cf, proper_clock (clk KReport) -> forall ths w t,
  reach debug ord md5 clk cf (ths, w) -> w_crash w = None -> EDisconnect t KReport ∈ w_trace w -> (forall t', ETick t' ∉ w_trace w) ->
  dropped KReport (w_trace w) = [] /\ sent_by_flush KReport (w_trace w) ≡ₚ RqReport <$> rflushed (ag_hr (w_aggs w)) /\
  exists gs, Forall2 (merges ord md5 (cf_reports cf)) gs (ops_of (rflushed (ag_hr (w_aggs w)))) /\ split_into ord md5 (accepted (ag_hr (w_aggs w))) gs.
Proof. intros * H *. by apply destroyed_no_timer. Qed.
Print Assumptions C61_no_timer_partial.
(** No flush callback runs after the destructor has removed it, and it removes all three before it returns. *)
Theorem C61_no_callback_afterwards : forall debug ord md5 clk cf ths w l1 t k l2, reach debug ord md5 clk cf (ths, w) -> w_trace w = l1 ++ EDisconnect t k :: l2 ->
  (forall t' n q, ECallback t' k n q ∉ l2) /\ (forall t' m n q, ETransport t' m (FromFlush k n) q ∉ l2).
Proof. intros *. apply no_callback_after. Qed.
Print Assumptions C61_no_callback_afterwards.
Theorem C61_removed_before_return : forall debug ord md5 clk cf ths w l1 t l2 k, reach debug ord md5 clk cf (ths, w) -> w_trace w = l1 ++ EFreed t :: l2 ->
  exists t', EDisconnect t' k ∈ l1.
Proof. intros *. apply freed_after. Qed.
Print Assumptions C61_removed_before_return.
(** The default options.  The timer's thread has taken the cached report out of the cache when the destructor runs on
    another thread: the report is dropped after the destructor has returned, and is never sent. *)
Definition cl_lost_clk (k : kind) : nat -> Z := match k with KReport => table_clock (replicate 3 0 ++ [2000000]) | _ => table_clock [0] end.
Definition cl_lost : list act :=
  [Do 0 Go; Do 1 Go; Do 0 (Call (cl_report [rp_op "1" "a" 1]))] ++ cl_fin ++
  [Do 1 Tick; Run 1 8; Do 1 Go; Do 1 (Fuel 40); Do 1 Go; Do 0 Destroy; Run 0 100; Run 1 100].
Definition cl_lost_s := after cl_lost_clk cl_cf cl_lost.
Theorem C61_no_report_lost_refuted : exists clk cf ths w l1 t l2, (forall k, proper_clock (clk k)) /\ reach true default_order ck_md5 clk cf (ths, w) /\
  w_crash w = None /\ nothing_running ths /\ w_trace w = l1 ++ EFreed t :: l2 /\ length (accepted (ag_hr (w_aggs w))) = 1%nat /\
  (exists t' k n q, EDropped t' k n q ∈ l2) /\ forall k, sent_of k (w_trace w) = [].
Proof.
  exists cl_lost_clk, cl_cf, cl_lost_s.1, cl_lost_s.2.
  assert (exists l1 t t' k n q l2, w_trace cl_lost_s.2 = l1 ++ EFreed t :: EDropped t' k n q :: l2) as (l1 & t & t' & k & n & q & l2 & E).
  { assert (exists t t' k n q l2, drop 21 (w_trace cl_lost_s.2) = EFreed t :: EDropped t' k n q :: l2) as (t & t' & k & n & q & l2 & H) by (eexists _, _, _, _, _, _; vm_compute; reflexivity).
    exists (take 21 (w_trace cl_lost_s.2)), t, t', k, n, q, l2. rewrite <- H. by rewrite take_drop. }
  exists l1, t, (EDropped t' k n q :: l2). split. { intros []; apply sorted_table; repeat constructor; cbn; lia. }
  split; [cl_reaches|]. split; [vm_compute; reflexivity|]. split. { assert (cl_lost_s.1 = [[IUser]; [IUser]]) as -> by (vm_compute; reflexivity). repeat constructor. }
  split; [exact E|]. split; [vm_compute; reflexivity|]. split; [exists t', k, n, q; left|]. intros []; vm_compute; reflexivity.
Qed.
Print Assumptions C61_no_report_lost_refuted.
Example C61_example : cl_reach ((cl_after cl_destroyed).1, (cl_after cl_destroyed).2) /\ w_crash (cl_after cl_destroyed).2 = None /\ EDisconnect 0 KReport ∈ w_trace (cl_after cl_destroyed).2 /\
  length (sent_by_flush KReport (w_trace (cl_after cl_destroyed).2)) = 1%nat /\
  brief <$> drop 29 (w_trace (cl_after cl_destroyed).2) = [("destroy", 0); ("check", 3); ("callback", 3); ("send", 2); ("agg_return", 3); ("quota", 2); ("agg_return", 2); ("report", 1); ("callback", 1); ("send", 3); ("agg_return", 1);
     ("disconnect", 0); ("disconnect", 0); ("disconnect", 0); ("freed", 0)]%string%nat.
Proof.
  split; [cl_reaches|]. split; [vm_compute; reflexivity|]. split. { apply elem_of_list_lookup. exists 42%nat. vm_compute. reflexivity. }
  split; vm_compute; reflexivity.
Qed.

(** ** C62 *)
(** If a timer function is supplied and no enabled cache has the interval 0, the timer is started with the smallest interval of the enabled caches. *)
Theorem C62_timer_often_enough_partial : forall ord clk cf a, new_aggs ord clk cf = Ok a -> int_options cf -> cf_timer cf = true -> (forall k, ~ needs_flush cf k 0) ->
  exists ms, timer_interval cf a = Some ms /\ 0 < ms /\ (forall k ms', needs_flush cf k ms' -> ms <= ms') /\
    ((exists k, needs_flush cf k ms) \/ (ms = int32_max /\ forall k ms', ~ needs_flush cf k ms')).
Proof. intros *. apply timer_runs. Qed.
Print Assumptions C62_timer_often_enough_partial.
Theorem C62_no_timer_iff : forall ord clk cf a, new_aggs ord clk cf = Ok a -> int_options cf ->
  timer_interval cf a = None <-> cf_timer cf = false \/ exists k, needs_flush cf k 0.
Proof. intros *. apply timer_none. Qed.
Print Assumptions C62_no_timer_iff.
(** The default options, except that the quota cache has the interval 0: there is no timer though the caches of checks and reports need one. *)
Definition cl_zero_cf : client_config := ClientConfig "svc" "cfg" default_check_options (NewQuotaOptions 10000 0 600000) default_report_options None (fun _ => true) true.
Theorem C62_timer_refuted : exists clk cf a, (forall k, proper_clock (clk k)) /\ new_aggs default_order clk cf = Ok a /\ int_options cf /\ cf_timer cf = true /\
  needs_flush cf KReport 1000 /\ needs_flush cf KCheck 1000 /\ timer_interval cf a = None.
Proof.
  exists cl_clk, cl_zero_cf. eexists. split. { apply cl_table; repeat constructor; lia. } split; [vm_compute; reflexivity|].
  split; [repeat split; vm_compute; discriminate|]. split; [done|]. split; [repeat split; vm_compute; congruence|]. split; [repeat split; vm_compute; congruence|]. reflexivity.
Qed.
Print Assumptions C62_timer_refuted.
Example C62_example : exists a, new_aggs default_order cl_clk cl_cf = Ok a /\ int_options cl_cf /\ (forall k, ~ needs_flush cl_cf k 0) /\ timer_interval cl_cf a = Some 1000.
Proof.
  eexists. split; [vm_compute; reflexivity|]. split; [repeat split; vm_compute; discriminate|]. split; [|vm_compute; reflexivity]. intros [] (_ & _ & H); discriminate H.
Qed.

(** ** C63 *)
Theorem C63_expiration_above_flush : forall entries flush expiration o, NewCheckOptions entries flush expiration = Ok o ->
  co_entries o = entries /\ co_flush_ms o = flush /\ flush + 1 <= co_expiration_ms o /\ expiration <= co_expiration_ms o /\
  (co_expiration_ms o = flush + 1 \/ co_expiration_ms o = expiration).
Proof. exact check_expiration. Qed.
Print Assumptions C63_expiration_above_flush.
Theorem C63_defined_partial : forall entries flush expiration, int32_min <= flush < int32_max -> exists o, NewCheckOptions entries flush expiration = Ok o.
Proof. exact check_options_ok. Qed.
Print Assumptions C63_defined_partial.
(** With the largest flush interval the constructor has undefined behaviour. *)
Theorem C63_defined_refuted : forall entries expiration, NewCheckOptions entries int32_max expiration = UB SignedOverflow.
Proof. reflexivity. Qed.
Print Assumptions C63_defined_refuted.
(** The default options keep to it too. *)
Example C63_defaults : NewCheckOptions 10000 500 1000 = Ok default_check_options /\ default_quota_options = NewQuotaOptions 10000 1000 600000 /\ default_report_options = NewReportOptions 10000 1000.
Proof. repeat split. Qed.
Example C63_example : NewCheckOptions 10 500 100 = Ok (CheckOptions 10 500 501) /\ NewCheckOptions 10 500 1000 = Ok (CheckOptions 10 500 1000) /\ NewCheckOptions 10 (-1) (-1) = Ok (CheckOptions 10 (-1) 0).
Proof. repeat split. Qed.

(** ** C68 *)
(** The program is terminated only if an item is flushed for which no default transport was supplied. *)
Theorem C68_transport_supplied_partial : forall debug ord md5 clk cf ths w k, reach debug ord md5 clk cf (ths, w) -> w_crash w = Some (NullTransport k) -> cf_transport cf k = false.
Proof. intros *. apply null_crash. Qed.
Print Assumptions C68_transport_supplied_partial.
(** The default options without a report transport: a report with its own transport is cached, and the destructor terminates the program. *)
Definition cl_none_cf : client_config :=
  ClientConfig "svc" "cfg" default_check_options default_quota_options default_report_options None (fun k => if decide (k = KReport) then false else true) true.
Definition cl_none : list act := [Do 0 Go; Do 0 (Call (Api (RqReport (rp_req [rp_op "1" "a" 1])) (Some true) false))] ++ cl_fin ++ [Do 0 Destroy; Run 0 100].
Theorem C68_default_transport_refuted : exists clk cf ths w, (forall k, proper_clock (clk k)) /\ reach true default_order ck_md5 clk cf (ths, w) /\
  (forall t c a, EStart t c a ∈ w_trace w -> has_transport cf a = true) /\ w_crash w = Some (NullTransport KReport) /\ exists t, EDone t 0 SOk RpNone ∈ w_trace w.
Proof.
  exists cl_clk, cl_none_cf, (after cl_clk cl_none_cf cl_none).1, (after cl_clk cl_none_cf cl_none).2. split. { apply cl_table; repeat constructor; lia. }
  split; [cl_reaches|]. split.
  - intros t c a H. assert (H' : c ∈ started (w_trace (after cl_clk cl_none_cf cl_none).2)). { unfold started. apply elem_of_list_bind. eexists. split; [|exact H]. constructor. }
    assert (started (w_trace (after cl_clk cl_none_cf cl_none).2) = [0%nat]) as Es by (vm_compute; reflexivity). rewrite Es in H'. apply elem_of_list_singleton in H' as ->.
    assert (exists t0, EStart t0 0 (Api (RqReport (rp_req [rp_op "1" "a" 1])) (Some true) false) ∈ w_trace (after cl_clk cl_none_cf cl_none).2) as (t0 & H0).
    { exists 0%nat. apply elem_of_list_lookup. exists 0%nat. vm_compute. reflexivity. }
    assert (reach true default_order ck_md5 cl_clk cl_none_cf ((after cl_clk cl_none_cf cl_none).1, (after cl_clk cl_none_cf cl_none).2)) as R by cl_reaches.
    destruct (start_unique R H H0) as [_ ->]. reflexivity.
  - split; [vm_compute; reflexivity|]. exists 0%nat. apply elem_of_list_lookup. exists 3%nat. vm_compute. reflexivity.
Qed.
Print Assumptions C68_default_transport_refuted.

(** ** C69 *)
(** The user's done callback and the transport of a user's call run with no mutex of the client held by the thread. *)
Theorem C69_done_without_locks : forall debug ord md5 clk cf t ch ths w ths' w' t' c s r k,
  reach debug ord md5 clk cf (ths, w) -> step debug ord md5 clk cf t ch (ths, w) = Some (ths', w') -> w_trace w' = w_trace w ++ [EDone t' c s r] ->
  w_cache w k <> Some t /\ w_callback w k <> Some t.
Proof. intros *. apply done_unlocked. Qed.
Print Assumptions C69_done_without_locks.
Theorem C69_transport_without_locks : forall debug ord md5 clk cf t ch ths w ths' w' t' m c q evs k,
  reach debug ord md5 clk cf (ths, w) -> step debug ord md5 clk cf t ch (ths, w) = Some (ths', w') -> w_trace w' = w_trace w ++ ETransport t' m (FromCall c) q :: evs ->
  w_cache w k <> Some t /\ w_callback w k <> Some t.
Proof. intros *. apply transport_unlocked. Qed.
Print Assumptions C69_transport_without_locks.
(** A transport that is called for flushed items runs with the callback mutex of its aggregator held, and no other. *)
Theorem C69_flush_transport_locks : forall debug ord md5 clk cf t ch ths w ths' w' t' m k0 n q evs k,
  reach debug ord md5 clk cf (ths, w) -> step debug ord md5 clk cf t ch (ths, w) = Some (ths', w') -> w_trace w' = w_trace w ++ ETransport t' m (FromFlush k0 n) q :: evs ->
  w_cache w k <> Some t /\ (w_callback w k = Some t <-> k = k0).
Proof. intros *. apply flush_transport_locks. Qed.
Print Assumptions C69_flush_transport_locks.
Definition cl_sending : list act := [Do 0 Go; Do 0 (Call (cl_check "1" "a")); Run 0 7].
Definition cl_flushing : list act := [Do 0 Go; Do 0 (Call (cl_quota "1" "a" 1)); Run 0 7].
Example C69_example : cl_reach ((cl_after cl_sending).1, (cl_after cl_sending).2) /\ cl_reach ((cl_after cl_flushing).1, (cl_after cl_flushing).2) /\
  (exists s', cl_step 0 Go (cl_after cl_sending) = Some s' /\ w_trace s'.2 = w_trace (cl_after cl_sending).2 ++ [ETransport 0 0 (FromCall 0) (RqCheck (ck_req "1" "a"))]) /\
  exists s' q, cl_step 0 Go (cl_after cl_flushing) = Some s' /\ w_trace s'.2 = w_trace (cl_after cl_flushing).2 ++ [ETransport 0 0 (FromFlush KQuota 0) q].
Proof.
  split; [cl_reaches|]. split; [cl_reaches|]. split.
  - eexists. split; vm_compute; reflexivity.
  - eexists _, _. split; vm_compute; reflexivity.
Qed.

(** ** C70 *)
(** Whatever the threads do, each aggregator goes through a sequence of calls, one after the other: so all that was
    proved of sequences of calls (C33-C53, C64-C67) holds of the aggregators of a client.  The calls are numbered in the
    order in which they take effect, and a call that begins after another has returned has the larger number. *)
Theorem C70_sequential : forall debug ord md5 clk cf ths w, reach debug ord md5 clk cf (ths, w) ->
  creach ord md5 (clk KCheck) (cf_checks cf) (ag_check (w_aggs w)) (ag_hc (w_aggs w)) /\
  qreach debug ord md5 (clk KQuota) (cf_quotas cf) (ag_quota (w_aggs w)) (ag_hq (w_aggs w)) /\
  rreach ord md5 (clk KReport) (cf_reports cf) (ag_report (w_aggs w)) (ag_hr (w_aggs w)).
Proof. intros *. apply reach_sequential. Qed.
Print Assumptions C70_sequential.
Theorem C70_in_trace_order : forall debug ord md5 clk cf ths w k, reach debug ord md5 clk cf (ths, w) ->
  agg_numbers k (w_trace w) = seq 0 (length (calls k (w_aggs w))).
Proof. intros *. apply agg_numbered. Qed.
Print Assumptions C70_in_trace_order.
Theorem C70_real_time : forall debug ord md5 clk cf ths w l1 t k n l2 t' m u, reach debug ord md5 clk cf (ths, w) ->
  w_trace w = l1 ++ EAggReturn t k n :: l2 -> EAgg t' k m u ∈ l2 -> (n < m)%nat.
Proof. intros *. apply real_time. Qed.
Print Assumptions C70_real_time.
(** Two threads check the same request at the same time; both go to the server. *)
Definition cl_race : list act := [Do 0 Go; Do 1 Go; Do 0 (Call (cl_check "1" "a")); Do 1 (Call (cl_check "2" "a")); Run 0 5; Run 1 100; Run 0 100].
Example C70_example : cl_reach ((cl_after cl_race).1, (cl_after cl_race).2) /\ agg_numbers KCheck (w_trace (cl_after cl_race).2) = [0; 1]%nat /\
  brief <$> w_trace (cl_after cl_race).2 = [("start", 0); ("start", 1); ("check", 0); ("check", 1); ("agg_return", 1); ("send", 0); ("return", 1); ("agg_return", 0); ("send", 1); ("return", 0)]%string%nat.
Proof. split; [cl_reaches|]. split; vm_compute; reflexivity. Qed.

(** ** C71 *)
(** When the user is told what the server answered, the answer is already in the cache. *)
Theorem C71_recorded_before_told : forall debug ord md5 clk cf t ch ths w ths' w' t' c s r t1 m q call,
  reach debug ord md5 clk cf (ths, w) -> step debug ord md5 clk cf t ch (ths, w) = Some (ths', w') -> w_trace w' = w_trace w ++ [EDone t' c s r] ->
  ETransport t1 m (FromCall c) q ∈ w_trace w -> recording q s r = Some call ->
  exists n res, calls (call_kind call) (w_aggs w) !! n = Some (call, res).
Proof. intros *. apply told_recorded. Qed.
Print Assumptions C71_recorded_before_told.
Definition cl_telling : list act := cl_first ++ [Do 0 (Complete 0 SOk (RpCheck (ck_pos "r"))); Run 0 5].
Example C71_example : cl_reach ((cl_after cl_telling).1, (cl_after cl_telling).2) /\
  (exists s', cl_step 0 Go (cl_after cl_telling) = Some s' /\ w_trace s'.2 = w_trace (cl_after cl_telling).2 ++ [EDone 0 0 SOk (RpCheck (ck_pos "r"))]) /\
  ETransport 0 0 (FromCall 0) (RqCheck (ck_req "1" "a")) ∈ w_trace (cl_after cl_telling).2 /\
  recording (RqCheck (ck_req "1" "a")) SOk (RpCheck (ck_pos "r")) = Some (OnCheck (CCacheResponse (ck_req "1" "a") (ck_pos "r"))).
Proof.
  split; [cl_reaches|]. split; [eexists; split; vm_compute; reflexivity|]. split; [|reflexivity]. apply elem_of_list_lookup. exists 3%nat. vm_compute. reflexivity.
Qed.

(** ** C72 *)
(** If no timer function is supplied, the library creates no timer: the caches are never flushed by time. *)
Theorem C72_no_timer_without_function : forall debug ord md5 clk cf, cf_timer cf = false -> forall ths w, reach debug ord md5 clk cf (ths, w) -> forall t, ETick t ∉ w_trace w.
Proof. intros * H ths w R. by apply (no_tick H R). Qed.
Print Assumptions C72_no_timer_without_function.
Definition cl_plain_cf : client_config := ClientConfig "svc" "cfg" default_check_options default_quota_options default_report_options None (fun _ => true) false.
Theorem C72_default_timer_refuted : exists clk cf, (forall k, proper_clock (clk k)) /\ (exists a, new_aggs default_order clk cf = Ok a) /\ cf_timer cf = false /\ needs_flush cf KReport 1000 /\
  forall debug md5 ths w, reach debug default_order md5 clk cf (ths, w) -> forall t, ETick t ∉ w_trace w.
Proof.
  exists cl_clk, cl_plain_cf. split. { apply cl_table; repeat constructor; lia. } split; [eexists; vm_compute; reflexivity|]. split; [done|].
  split; [repeat split; vm_compute; congruence|]. intros debug md5 ths w R. by eapply C72_no_timer_without_function; [|exact R].
Qed.
Print Assumptions C72_default_timer_refuted.
