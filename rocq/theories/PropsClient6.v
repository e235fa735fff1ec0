(** C93, C94: the checks that the cache of the client answers, from end to end.  [cache_passes] are the operations of the Check
    calls that were told OK, with an answer without errors, although nothing was sent for the call. *)
From Verif Require Import Base Proto Signature OpAgg OpAggSpec Lru LruSpec Timeout TimeoutProofs Agg CheckAgg CheckAggSpec QuotaAgg QuotaAggSpec ReportAgg ReportAggSpec.
From Verif Require Import Client ClientSpec ClientWhole ClientQuota ClientCheckEnd ClientFresh PropsCheck PropsQuota PropsReport ClientRun PropsClient PropsClient3 PropsClient4 PropsClient5.
From stdpp Require Import gmap list.
Local Open Scope Z_scope.

(** When nothing is running: the requests that the flushes sent, those that could not be sent because the client was being
    destroyed, and those that a FlushAll would hand out now, are the merges of groups of operations of equal signature, and the
    operations in the groups are exactly those that passed, and some that were sent for their own calls too.  If the last
    thing that happened to the cache is a FlushAll, nothing is left. *)
Theorem C93_checks_reported_partial : forall debug ord md5 clk cf ths w, reach debug ord md5 clk cf (ths, w) -> w_crash w = None -> nothing_running ths ->
  proper_clock (clk KCheck) ->
  exists st' left groups reqs extra,
    cstep ord md5 (clk KCheck) (cf_checks cf) CFlushAll (ag_check (w_aggs w)) = Ok (st', CheckResult SOk None left) /\
    RqCheck <$> reqs ≡ₚ sent_by_flush KCheck (w_trace w) ++ dropped KCheck (w_trace w) ++ (RqCheck <$> left) /\
    Forall2 (reports ord md5 (cf_checks cf)) groups reqs /\ Forall (fun g => exists k, Forall (fun o => op_sig ord md5 o = k) g) groups /\
    concat groups ≡ₚ cache_passes (w_trace w) ++ extra /\ extra ⊆+ check_operations (sent_for_calls KCheck (w_trace w)) /\
    (last (calls KCheck (w_aggs w)).*1 = Some (OnCheck CFlushAll) -> left = []).
Proof. exact checks_balance. Qed.
Print Assumptions C93_checks_reported_partial.
(** The operations that passed without asking the server are exactly those that the cache answered. *)
Theorem C93_passed_once : forall debug ord md5 clk cf ths w, reach debug ord md5 clk cf (ths, w) -> w_crash w = None -> nothing_running ths ->
  cache_passes (w_trace w) ≡ₚ CheckAggSpec.answered (ag_hc (w_aggs w)).
Proof. exact passes_permutation. Qed.
Print Assumptions C93_passed_once.
(** Nothing is dropped if the client is not destroyed, or not while an operation of its check cache is under way. *)
Theorem C93_all_sent : forall debug ord md5 clk cf ths w k, reach debug ord md5 clk cf (ths, w) -> w_crash w = None -> nothing_running ths ->
  undisturbed k (w_trace w) ->
  dropped k (w_trace w) = [] /\ sent_by_flush k (w_trace w) ≡ₚ removed_items k (w_aggs w).
Proof. intros * R Hc Hn. by apply (none_dropped R Hc Hn). Qed.
Print Assumptions C93_all_sent.
(** A check of "a" goes to the server, which lets it pass; two more are answered from the cache; the client is destroyed and
    sends one request for the two. *)
Definition cl_checks : list act := cl_again ++ [Do 0 (Call (cl_check "3" "a"))] ++ cl_fin ++ [Do 0 Destroy; Run 0 100].
Definition cl_checks_s := cl_after cl_checks.
Example C93_example : proper_clock (cl_clk KCheck) /\ cl_reach (cl_checks_s.1, cl_checks_s.2) /\ w_crash cl_checks_s.2 = None /\ nothing_running cl_checks_s.1 /\
  undisturbed KCheck (w_trace cl_checks_s.2) /\ last (calls KCheck (w_aggs cl_checks_s.2)).*1 = Some (OnCheck CFlushAll) /\
  op_id <$> cache_passes (w_trace cl_checks_s.2) = ["2"; "3"]%string /\ length (sent_by_flush KCheck (w_trace cl_checks_s.2)) = 1%nat /\
  op_id <$> check_operations (sent_for_calls KCheck (w_trace cl_checks_s.2)) = ["1"]%string.
Proof.
  split. { apply sorted_table; repeat constructor; lia. } split; [cl_reaches|]. split; [vm_compute; reflexivity|].
  split. { assert (cl_checks_s.1 = [[IUser]]) as -> by (vm_compute; reflexivity). repeat constructor. }
  split. { apply undisturbed_spec. vm_compute. reflexivity. }
  split_and!; vm_compute; reflexivity.
Qed.

(** ** C94 *)
(** A caller of Check who is told OK although nothing was sent for the call asked the cache (call [n] of the aggregator) less
    than the flush interval after another call [n0]: either that one recorded the answer given now, which the server had
    given to a request of the same signature, or it was asked for a call of the same signature, and that call is forwarded to
    the server. *)
Theorem C94_fresh_partial : forall debug ord md5 clk cf ths w t c r t0 a q, proper_clock (clk KCheck) -> reach debug ord md5 clk cf (ths, w) ->
  EDone t c SOk r ∈ w_trace w -> EStart t0 c a ∈ w_trace w -> ap_request a = RqCheck q -> (forall t1 m q, ETransport t1 m (FromCall c) q ∉ w_trace w) ->
  exists t1 n ev n0 ev0 now before, EAgg t1 KCheck n (Some c) ∈ w_trace w /\ (n0 < n)%nat /\
    ag_hc (w_aggs w) !! n = Some ev /\ ag_hc (w_aggs w) !! n0 = Some ev0 /\
    during (clk KCheck) now ev /\ during (clk KCheck) before ev0 /\ now - before < flush_interval_in_cycle (cf_checks cf) /\
    ((exists q' rp t2 m c' t3 b, cv_call ev0 = CCacheResponse q' (check_reply rp) /\ sig_of ord md5 q' = sig_of ord md5 q /\ r = RpCheck (check_reply rp) /\
        ETransport t2 m (FromCall c') (RqCheck q') ∈ w_trace w /\ ECompleted t3 m SOk rp b ∈ w_trace w) \/
     (exists q' t2 c' a', cv_call ev0 = CCheck q' /\ cres_status (cv_result ev0) = SNotFound /\ sig_of ord md5 q' = sig_of ord md5 q /\
        EAgg t2 KCheck n0 (Some c') ∈ w_trace w /\ EStart t2 c' a' ∈ w_trace w /\ ap_request a' = RqCheck q' /\ has_transport cf a' = true)).
Proof. intros *. apply told_fresh. Qed.
Print Assumptions C94_fresh_partial.
(** The age of the answer itself is not bounded: with the default options (flush interval 500 ms, expiration 1000 ms) a
    check is answered just before 1.1 s with the only answer that there was, recorded at 0; the check at 0.6 s was forwarded and is not
    answered yet. *)
Definition cl_old_clk (k : kind) : nat -> Z := match k with KCheck => table_clock (replicate 6 0 ++ replicate 4 600000 ++ [1099999]) | _ => table_clock [0] end.
Definition cl_old : list act := cl_answered ++ [Do 0 (Call (cl_check "2" "a")); Run 0 100; Do 0 (Call (cl_check "3" "a"))] ++ cl_fin.
Definition cl_old_s := after cl_old_clk cl_cf cl_old.
Definition cl_check_ev (n : nat) : check_event := nth n (ag_hc (w_aggs cl_old_s.2)) (CheckEvent CFlush (CheckResult SOk None []) 0 0 (CheckAgg None (Pool ∅ 0%nat []))).
Lemma cl_old_hist : ag_hc (w_aggs cl_old_s.2) = [cl_check_ev 0; cl_check_ev 1; cl_check_ev 2; cl_check_ev 3].
Proof. vm_compute. reflexivity. Qed.
Lemma cl_old_calls : cv_call (cl_check_ev 0) = CCheck (ck_req "1" "a") /\ cv_call (cl_check_ev 1) = CCacheResponse (ck_req "1" "a") (ck_pos "r") /\
  cv_call (cl_check_ev 2) = CCheck (ck_req "2" "a") /\ cv_call (cl_check_ev 3) = CCheck (ck_req "3" "a").
Proof. split_and!; vm_compute; reflexivity. Qed.
Lemma cl_old_times : cv_from (cl_check_ev 1) = 2%nat /\ cv_to (cl_check_ev 1) = 6%nat /\ cv_from (cl_check_ev 3) = 10%nat.
Proof. split_and!; vm_compute; reflexivity. Qed.
Lemma only_second (e0 e1 e2 e3 : check_event) q0 q2 q3 : cv_call e0 = CCheck q0 -> cv_call e2 = CCheck q2 -> cv_call e3 = CCheck q3 ->
  forall n1 ev1 q1 r1, [e0; e1; e2; e3] !! n1 = Some ev1 -> cv_call ev1 = CCacheResponse q1 r1 -> n1 = 1%nat.
Proof. intros C0 C2 C3 [|[|[|[|n1]]]] ev1 q1 r1 E H; cbn in E; try discriminate; injection E as <-; congruence. Qed.
Theorem C94_age_refuted : exists clk ths w t t1 c ev q ev0, proper_clock (clk KCheck) /\ reach true default_order ck_md5 clk cl_cf (ths, w) /\
  EDone t c SOk (RpCheck (ck_pos "r")) ∈ w_trace w /\ EAgg t1 KCheck 3 (Some c) ∈ w_trace w /\ forwards c (w_trace w) = [] /\
  ag_hc (w_aggs w) !! 3%nat = Some ev /\ cv_call ev = CCheck q /\
  ag_hc (w_aggs w) !! 1%nat = Some ev0 /\ cv_call ev0 = CCacheResponse (ck_req "1" "a") (ck_pos "r") /\
  (forall n1 ev1 q1 r1, ag_hc (w_aggs w) !! n1 = Some ev1 -> cv_call ev1 = CCacheResponse q1 r1 -> n1 = 1%nat) /\
  (forall now before, during (clk KCheck) now ev -> during (clk KCheck) before ev0 ->
     now - before > flush_interval_in_cycle (cf_checks cl_cf) /\ now - before > 1000 * co_expiration_ms (cc_options (cf_checks cl_cf))).
Proof.
  destruct cl_old_calls as (C0 & C1 & C2 & C3), cl_old_times as (T1 & T2 & T3).
  exists cl_old_clk, cl_old_s.1, cl_old_s.2, 0%nat, 0%nat, 2%nat, (cl_check_ev 3), (ck_req "3" "a"), (cl_check_ev 1).
  split. { apply sorted_table; repeat constructor; lia. } split; [cl_reaches|].
  split. { apply (elem_of_list_lookup_2 _ 17). vm_compute. reflexivity. }
  split. { apply (elem_of_list_lookup_2 _ 15). vm_compute. reflexivity. }
  split; [vm_compute; reflexivity|].
  rewrite cl_old_hist. split; [reflexivity|]. split; [exact C3|]. split; [reflexivity|]. split; [exact C1|]. split.
  - exact (only_second _ _ _ _ _ _ _ C0 C2 C3).
  - assert (flush_interval_in_cycle (cf_checks cl_cf) = 500000) as -> by (vm_compute; reflexivity).
    assert (1000 * co_expiration_ms (cc_options (cf_checks cl_cf)) = 1000000) as -> by (vm_compute; reflexivity).
    intros now before (i & Hi & ->) (j & Hj & ->). rewrite T3 in Hi. rewrite T1, T2 in Hj.
    assert (cl_old_clk KCheck i = 1099999) as ->.
    { assert (exists k, i = (10 + k)%nat) as [k ->] by (exists (i - 10)%nat; lia). destruct k as [|k]; [reflexivity|]. unfold cl_old_clk, table_clock. cbn. destruct k; reflexivity. }
    assert (cl_old_clk KCheck j = 0) as ->; [|lia].
    destruct j as [|[|[|[|[|[|j]]]]]]; try reflexivity; lia.
Qed.
Print Assumptions C94_age_refuted.
(** [cl_old] up to the second check, at an instant: it is answered from the cache. *)
Definition cl_again_s := cl_after cl_again.
Example C94_example : proper_clock (cl_clk KCheck) /\ cl_reach (cl_again_s.1, cl_again_s.2) /\
  told (w_trace cl_again_s.2) = [(0%nat, SOk, RpCheck (ck_pos "r")); (1%nat, SOk, RpCheck (ck_pos "r"))] /\
  EStart 0 1 (cl_check "2" "a") ∈ w_trace cl_again_s.2 /\ forwards 1 (w_trace cl_again_s.2) = [].
Proof.
  split. { apply sorted_table; repeat constructor; lia. } split; [cl_reaches|].
  split_and!; [vm_compute; reflexivity| |vm_compute; reflexivity].
  apply (elem_of_list_lookup_2 _ 9). vm_compute. reflexivity.
Qed.
