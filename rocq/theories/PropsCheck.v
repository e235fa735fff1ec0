(** C38-C42, C64, C65: the check aggregator.  The vocabulary is in CheckAggSpec.v: a history is a list of finished
    calls with their results, [creach] are the states and histories from construction on, [cached] says that a
    signature is in the cache. *)
From Verif Require Import Base Proto Signature OpAgg OpAggSpec Lru LruSpec Timeout TimeoutProofs Agg CheckAgg CheckAggSpec CheckAggClaims.
From stdpp Require Import gmap list.
Local Open Scope Z_scope.

(** ** Concrete runs, for the examples *)
Fixpoint ck_play ord md5 clk cf (calls : list check_call) (st : check_agg) (h : list check_event) : option (check_agg * list check_event) :=
  match calls with
  | [] => Some (st, h)
  | call :: calls =>
    match cstep ord md5 clk cf call st with
    | Ok r => ck_play ord md5 clk cf calls r.1 (h ++ [CheckEvent call r.2 (readings st) (readings r.1) r.1])
    | _ => None
    end
  end.
Definition ck_run ord md5 clk cf calls : option (check_agg * list check_event) :=
  match NewCheckAggregator ord clk cf with Ok st => ck_play ord md5 clk cf calls st [] | _ => None end.
Lemma ck_reach ord md5 clk cf calls x : ck_run ord md5 clk cf calls = Some x -> creach ord md5 clk cf x.1 x.2.
Proof.
  unfold ck_run. destruct (NewCheckAggregator ord clk cf) as [st| | |] eqn:E; try done.
  assert (creach ord md5 clk cf st []) as R by by constructor. revert R. generalize (@nil check_event) as h. clear E. revert st.
  induction calls as [|call calls IH]; intros st h R; cbn; [by intros [= <-]|].
  destruct (cstep ord md5 clk cf call st) as [[st' r]| | |] eqn:E; try done. apply IH. by econstructor.
Qed.
(** A clock given by its first readings; it stays at the last one. *)
Definition table_clock (ts : list Z) (i : nat) : Z := nth i ts (List.last ts 0).
Lemma sorted_table ts : StronglySorted Z.le ts -> Forall (fun t => 0 <= t) ts -> proper_clock (table_clock ts).
Proof.
  intros S F. assert (L : Forall (fun t => t <= List.last ts 0) ts).
  { clear F. induction S as [|x ts S IH F]; [constructor|]. destruct ts as [|y ts]; [repeat constructor; cbn; lia|].
    change (List.last (x :: y :: ts) 0) with (List.last (y :: ts) 0). constructor; [|done]. apply Forall_inv in IH. apply Forall_inv in F. lia. }
  assert (L0 : 0 <= List.last ts 0). { destruct ts as [|x ts]; [done|]. apply Forall_inv in F. apply Forall_inv in L. lia. }
  unfold table_clock. assert (N : forall i, nth i ts (List.last ts 0) <= List.last ts 0).
  { intros i. destruct (nth_in_or_default i ts (List.last ts 0)) as [Hn|Hn]; [|lia]. rewrite Forall_forall in L. apply L. by apply elem_of_list_In. }
  split.
  - assert (G : forall z i j, Forall (fun t => t <= z) ts -> (i <= j)%nat -> nth i ts z <= nth j ts z); [|auto]. clear -S. intros z.
    induction S as [|x ts S IH F]; intros i j L H; [by destruct i, j|].
    apply Forall_cons in L as [L1 L2]. destruct i as [|i], j as [|j]; cbn; try lia; [|apply IH; [done|lia]].
    destruct (nth_in_or_default j ts z) as [Hn|Hn]; [|lia]. rewrite Forall_forall in F. apply F. by apply elem_of_list_In.
  - intros i. destruct (nth_in_or_default i ts (List.last ts 0)) as [Hn|Hn]; [|lia]. rewrite Forall_forall in F. apply F. by apply elem_of_list_In.
Qed.
Definition ck_default_options : check_options := CheckOptions 10000 500 1000.
Definition ck_cf (opts : check_options) : check_config := CheckConfig "svc" "cfg" opts None.
Definition ck_op (id name : string) : operation := Operation id name "c" None None ∅ [] [] LOW "".
Definition ck_req (id name : string) : check_request := CheckRequest "svc" (Some (ck_op id name)) "" "".
Definition ck_pos (tag : string) : check_response := CheckResponse [] tag.
Definition ck_neg (tag : string) : check_response := CheckResponse ["denied"]%string tag.
Definition ck_md5 (s : string) : string := s.
(** Flush interval 500 ms, expiration 1000 ms (the defaults).  An answer for "a" is stored at 0; "a" is checked at
    400, 900 and 1300 ms; nobody ever stores a second answer. *)
Definition ck_clk : nat -> Z := table_clock ([0;0;0;0;0] ++ [400000;400000;400000] ++ [900000;900000;900000;900000] ++ [1300000]).
Lemma ck_clock : proper_clock ck_clk.
Proof. apply sorted_table; repeat constructor; lia. Qed.
Definition ck_calls : list check_call :=
  [CCacheResponse (ck_req "1" "a") (ck_pos "r"); CCheck (ck_req "2" "a"); CCheck (ck_req "3" "a"); CCheck (ck_req "4" "a")].
Definition ck_state (opts : check_options) (calls : list check_call) : check_agg :=
  match ck_run default_order ck_md5 ck_clk (ck_cf opts) calls with Some x => x.1 | None => CheckAgg None (Pool ∅ 0%nat []) end.
Definition ck_hist (opts : check_options) (calls : list check_call) : list check_event :=
  match ck_run default_order ck_md5 ck_clk (ck_cf opts) calls with Some x => x.2 | None => [] end.
Lemma ck_reaches opts calls : ck_run default_order ck_md5 ck_clk (ck_cf opts) calls <> None ->
  creach default_order ck_md5 ck_clk (ck_cf opts) (ck_state opts calls) (ck_hist opts calls).
Proof. intros H. unfold ck_state, ck_hist. destruct (ck_run _ _ _ _ _) as [x|] eqn:E; [|done]. by apply (ck_reach _ _ _ _ _ _ E). Qed.
Ltac creaches := apply ck_reaches; vm_compute; discriminate.
Notation ck_st := (ck_state ck_default_options).
Notation ck_h := (ck_hist ck_default_options).
Notation ck_creach := (creach default_order ck_md5 ck_clk (ck_cf ck_default_options)).
Notation ck_step := (cstep default_order ck_md5 ck_clk (ck_cf ck_default_options)).

Definition ck_sig : string := sig_of default_order ck_md5 (ck_req "1" "a").
Definition ck_no_event : check_event := CheckEvent CFlush (CheckResult SOk None []) 0 0 (CheckAgg None (Pool ∅ 0%nat [])).
Definition ck_ev (n : nat) : check_event := nth n (ck_h ck_calls) ck_no_event.
(** The same with the stored request checked again at the end. *)
Definition ck_calls2 : list check_call :=
  [CCacheResponse (ck_req "1" "a") (ck_pos "r"); CCheck (ck_req "2" "a"); CCheck (ck_req "3" "a"); CCheck (ck_req "1" "a")].
Definition ck_ev2 (n : nat) : check_event := nth n (ck_h ck_calls2) ck_no_event.

(** ** C38 *)
(** Wrong service or no operation: an error and no effect, in any state. *)
Theorem C38_malformed_rejected : forall ord md5 clk cf q st,
  cr_service q <> cc_service cf \/ cr_operation q = None ->
  cstep ord md5 clk cf (CCheck q) st = Ok (st, CheckResult SInvalidArgument None []).
Proof. exact check_malformed. Qed.
Print Assumptions C38_malformed_rejected.
(** An important operation goes to the server and has no effect, in any state. *)
Theorem C38_important_forwarded : forall ord md5 clk cf q o st,
  cr_service q = cc_service cf -> cr_operation q = Some o -> op_importance o <> LOW ->
  cstep ord md5 clk cf (CCheck q) st = Ok (st, CheckResult SNotFound None []).
Proof. exact check_important. Qed.
Print Assumptions C38_important_forwarded.
(** With caching disabled every well-formed check goes to the server, whatever happened before, and nothing is ever flushed. *)
Theorem C38_disabled_forwards : forall ord md5 clk cf, proper_clock clk -> forall st h q o,
  creach ord md5 clk cf st h -> co_entries (cc_options cf) <= 0 -> cr_service q = cc_service cf -> cr_operation q = Some o ->
  cstep ord md5 clk cf (CCheck q) st = Ok (st, CheckResult SNotFound None []) /\ flushed h = [].
Proof. exact check_disabled. Qed.
Print Assumptions C38_disabled_forwards.
Example C38_example : ck_creach (ck_st (take 2 ck_calls)) (ck_h (take 2 ck_calls)) /\
  (exists x, ck_step (CCheck (ck_req "9" "a")) (ck_st (take 1 ck_calls)) = Ok x /\ cres_status x.2 = SOk) /\
  ck_step (CCheck (CheckRequest "other" (Some (ck_op "9" "a")) "" "")) (ck_st (take 1 ck_calls)) =
    Ok (ck_st (take 1 ck_calls), CheckResult SInvalidArgument None []) /\
  creach default_order ck_md5 ck_clk (ck_cf (CheckOptions 0 500 1000)) (ck_state (CheckOptions 0 500 1000) ck_calls) (ck_hist (CheckOptions 0 500 1000) ck_calls).
Proof. split; [creaches|]. split; [eexists; split; vm_compute; reflexivity|]. split; [vm_compute; reflexivity|creaches]. Qed.

(** ** C39 *)
Theorem C39_answers_latest : forall ord md5 clk cf, proper_clock clk -> forall st h q st' res,
  creach ord md5 clk cf st h -> cstep ord md5 clk cf (CCheck q) st = Ok (st', res) ->
  match cres_status res with
  | SOk => eligible cf q = true /\ exists r ev, cres_response res = Some r /\
      most_recent (fun ev => exists r, stores ord md5 (sig_of ord md5 q) r ev) h ev /\ stores ord md5 (sig_of ord md5 q) r ev
  | _ => cres_response res = None
  end.
Proof. exact answers_latest. Qed.
Print Assumptions C39_answers_latest.
(** Two answers were stored for "a"; the second one is served. *)
Example C39_example : let calls := ck_calls ++ [CCacheResponse (ck_req "1" "a") (ck_neg "new")] in
  ck_creach (ck_st calls) (ck_h calls) /\ exists st', ck_step (CCheck (ck_req "2" "a")) (ck_st calls) = Ok (st', CheckResult SOk (Some (ck_neg "new")) []).
Proof. split; [creaches|]. eexists; vm_compute; reflexivity. Qed.

(** ** C40 *)
(** What a check is told, in terms of the history: an entry not in the cache afterwards was not found, and
    otherwise the answer is withheld exactly when the flush interval has passed since the last round trip. *)
Theorem C40_decision : forall ord md5 clk cf, proper_clock clk -> forall st h q st' res,
  creach ord md5 clk cf st h -> eligible cf q = true -> cstep ord md5 clk cf (CCheck q) st = Ok (st', res) ->
  let sig := sig_of ord md5 q in
  (~ cached st' sig /\ cres_status res = SNotFound /\ cres_response res = None) \/
  (cached st' sig /\ exists ev1 ev2 r t0 t,
     most_recent (fun ev => exists r, stores ord md5 sig r ev) h ev1 /\ stores ord md5 sig r ev1 /\
     most_recent (refreshes ord md5 cf sig) h ev2 /\ during clk t0 ev2 /\
     (exists i, (readings st <= i < readings st')%nat /\ t = clk i) /\
     if flush_interval_in_cycle cf <=? t - t0 then cres_status res = SNotFound /\ cres_response res = None
     else cres_status res = SOk /\ cres_response res = Some r).
Proof. exact decision. Qed.
Print Assumptions C40_decision.
(** After any round trip, a check of a signature that is still cached is sent to the server only a flush interval later. *)
Theorem C40_at_most_once_per_interval : forall ord md5 clk cf, proper_clock clk -> forall st h ev1 ev2 sig,
  creach ord md5 clk cf st (h ++ [ev2]) -> ev1 ∈ h -> refreshes ord md5 cf sig ev1 ->
  asked ord md5 cf sig SNotFound ev2 -> cached st sig ->
  exists t, during clk t ev2 /\ flush_interval_in_cycle cf <= t - clk (cv_from ev1).
Proof. exact one_refresh. Qed.
Print Assumptions C40_at_most_once_per_interval.
(** The interval is the configured number of milliseconds, in microseconds. *)
Theorem C40_interval : forall cf, int32_min <= co_flush_ms (cc_options cf) <= int32_max ->
  flush_interval_in_cycle cf = 1000 * co_flush_ms (cc_options cf).
Proof. exact flush_interval_exact. Qed.
Print Assumptions C40_interval.
(** The check at 900 ms is told NOT_FOUND, 900 ms after the answer was stored; those at 400 ms and 1300 ms are answered. *)
Example C40_example : let h := ck_h ck_calls in
  ck_creach (ck_st ck_calls) h /\ ((fun ev => cres_status (cv_result ev)) <$> h) = [SOk; SOk; SNotFound; SOk] /\
  exists ev0 ev1 ev2, ck_h (take 3 ck_calls) = [ev0; ev1] ++ [ev2] /\ ck_creach (ck_st (take 3 ck_calls)) (ck_h (take 3 ck_calls)) /\
    refreshes default_order ck_md5 (ck_cf ck_default_options) ck_sig ev0 /\
    asked default_order ck_md5 (ck_cf ck_default_options) ck_sig SNotFound ev2 /\
    cached (ck_st (take 3 ck_calls)) ck_sig /\ during ck_clk 900000 ev2 /\ ck_clk (cv_from ev0) = 0 /\ flush_interval_in_cycle (ck_cf ck_default_options) = 500000.
Proof.
  split; [creaches|]. split; [vm_compute; reflexivity|].
  exists (ck_ev 0), (ck_ev 1), (ck_ev 2). split; [vm_compute; reflexivity|]. split; [creaches|].
  split; [right; eexists _, _; split; vm_compute; reflexivity|]. split; [eexists; split; [|split; [|split]]; vm_compute; reflexivity|].
  split; [eexists; split; [vm_compute; reflexivity|vm_compute; by eexists]|].
  split; [exists 9%nat; vm_compute; split; [lia|done]|]. vm_compute; repeat split; reflexivity.
Qed.

(** ** C41: false as stated *)
(** With the default options, an answer stored at 0 is served at 1.3 s although it expires after 1 s and nothing
    was stored since: using an entry keeps it alive, and the caller that was told NOT_FOUND at 0.9 s need not have
    an answer yet. *)
Theorem C41_expiration_refuted : exists ord md5 clk cf st h ev0 ev q r, proper_clock clk /\
  cc_options cf = CheckOptions 10000 500 1000 /\ creach ord md5 clk cf st (ev0 :: h ++ [ev]) /\
  cv_call ev0 = CCacheResponse q r /\ (forall e q' r', e ∈ h -> cv_call e <> CCacheResponse q' r') /\
  cv_call ev = CCheck q /\ cres_status (cv_result ev) = SOk /\ cres_response (cv_result ev) = Some r /\
  forall t0 t, during clk t0 ev0 -> during clk t ev -> 1000 * co_expiration_ms (cc_options cf) < t - t0.
Proof.
  exists default_order, ck_md5, ck_clk, (ck_cf ck_default_options), (ck_st ck_calls2), [ck_ev2 1; ck_ev2 2], (ck_ev2 0), (ck_ev2 3), (ck_req "1" "a"), (ck_pos "r").
  split; [exact ck_clock|]. split; [done|]. split.
  { assert (ck_ev2 0 :: [ck_ev2 1; ck_ev2 2] ++ [ck_ev2 3] = ck_h ck_calls2) as -> by (vm_compute; reflexivity). creaches. }
  split; [vm_compute; reflexivity|]. split.
  { intros e q' r' He. apply elem_of_list_In in He. vm_compute in He. by destruct He as [<-|[<-|[]]]. }
  do 3 (split; [vm_compute; reflexivity|]).
  intros t0 t (i & Hi & ->) (j & Hj & ->). assert (ck_clk i = 0) as ->. 
  { vm_compute in Hi. do 5 (destruct i as [|i]; [done|]). lia. }
  assert (ck_clk j = 1300000) as ->; [|vm_compute; done].
  vm_compute in Hj. do 12 (destruct j as [|j]; [lia|]). do 3 (destruct j as [|j]; [done|]). lia.
Qed.
Print Assumptions C41_expiration_refuted.
(** What does hold: if the last round trip of the signature is the answer that is served (whoever was told NOT_FOUND
    has stored a new answer), the answer is younger than the flush interval, which is below the expiration. *)
Theorem C41_prompt_partial : forall ord md5 clk cf, proper_clock clk -> forall st h ev ev0 sig r,
  creach ord md5 clk cf st (h ++ [ev]) -> asked ord md5 cf sig SOk ev ->
  most_recent (refreshes ord md5 cf sig) h ev0 -> stores ord md5 sig r ev0 ->
  cres_response (cv_result ev) = Some r /\
  exists t0 t, during clk t0 ev0 /\ during clk t ev /\ t - t0 < flush_interval_in_cycle cf.
Proof. exact fresh_when_prompt. Qed.
Print Assumptions C41_prompt_partial.
(** And in any case an answer is served only if the signature was asked or answered within the expiration before. *)
Theorem C41_idle_partial : forall ord md5 clk cf, proper_clock clk -> forall st h ev sig idle,
  creach ord md5 clk cf st (h ++ [ev]) -> asked ord md5 cf sig SOk ev ->
  cycles_of_ms (co_expiration_ms (cc_options cf)) = Ok (Some idle) ->
  exists ev0 t0, most_recent (mentions ord md5 cf sig) h ev0 /\ during clk t0 ev0 /\ clk (cv_from ev) - t0 <= idle.
Proof. exact used_recently. Qed.
Print Assumptions C41_idle_partial.
Example C41_example :
  ck_creach (ck_st (take 2 ck_calls)) ([ck_ev 0] ++ [ck_ev 1]) /\
  asked default_order ck_md5 (ck_cf ck_default_options) ck_sig SOk (ck_ev 1) /\
  most_recent (refreshes default_order ck_md5 (ck_cf ck_default_options) ck_sig) [ck_ev 0] (ck_ev 0) /\
  stores default_order ck_md5 ck_sig (ck_pos "r") (ck_ev 0) /\
  cycles_of_ms (co_expiration_ms (cc_options (ck_cf ck_default_options))) = Ok (Some 1000000).
Proof.
  split.
  { assert ([ck_ev 0] ++ [ck_ev 1] = ck_h (take 2 ck_calls)) as -> by (vm_compute; reflexivity). creaches. }
  split; [eexists; split; [|split; [|split]]; vm_compute; reflexivity|].
  assert (stores default_order ck_md5 ck_sig (ck_pos "r") (ck_ev 0)) as S by (eexists; split; vm_compute; reflexivity).
  split; [exists [], []; split; [done|]; split; [right; by eexists|constructor]|]. split; [done|]. vm_compute; repeat split; reflexivity.
Qed.

(** ** C42 *)
(** Flush everything after any history: what was flushed, now and before, are the merges of groups of check
    operations with equal signature, in order of arrival, and the groups together are exactly the operations that
    were answered from a positive cached answer, plus some whose caller was told NOT_FOUND; nothing is left. *)
Theorem C42_reported_exactly_once : forall ord md5 clk cf, proper_clock clk -> forall st h, creach ord md5 clk cf st h ->
  exists st' fl groups extra,
    cstep ord md5 clk cf CFlushAll st = Ok (st', CheckResult SOk None fl) /\
    Forall2 (reports ord md5 cf) groups (flushed h ++ fl) /\
    concat groups ≡ₚ answered h ++ extra /\ extra ⊆+ sent_by_callers cf h /\
    Forall (fun g => (exists k, Forall (fun o => op_sig ord md5 o = k) g) /\ g `sublist_of` all_checked h) groups /\
    exists st'', cstep ord md5 clk cf CFlushAll st' = Ok (st'', CheckResult SOk None []).
Proof. exact reported_once. Qed.
Print Assumptions C42_reported_exactly_once.
Example C42_example : ck_creach (ck_st ck_calls) (ck_h ck_calls) /\
  op_id <$> answered (ck_h ck_calls) = ["2"; "4"]%string /\ op_id <$> sent_by_callers (ck_cf ck_default_options) (ck_h ck_calls) = ["3"]%string /\
  exists st' q, ck_step CFlushAll (ck_st ck_calls) = Ok (st', CheckResult SOk None [q]).
Proof. split; [creaches|]. split; [vm_compute; reflexivity|]. split; [vm_compute; reflexivity|]. eexists _, _. vm_compute. reflexivity. Qed.
(** The last sentence of the property is false: a check that was told NOT_FOUND because its cached positive answer
    needs a refresh is sent by its caller and once more by the aggregator. *)
Theorem C42_sent_twice_refuted : exists ord md5 clk cf st h o q, proper_clock clk /\ creach ord md5 clk cf st h /\
  answered h = [] /\ sent_by_callers cf h = [o] /\ flushed h = [q] /\ reports ord md5 cf [o] q.
Proof.
  pose (calls := [CCacheResponse (ck_req "1" "a") (ck_pos "r"); CFlush; CFlush; CFlush; CCheck (ck_req "3" "a"); CFlushAll]).
  exists default_order, ck_md5, ck_clk, (ck_cf ck_default_options), (ck_st calls), (ck_h calls), (ck_op "3" "a"), (CheckRequest "svc" (Some (ck_op "3" "a")) "cfg" "").
  split; [exact ck_clock|]. split; [creaches|]. do 3 (split; [vm_compute; reflexivity|]).
  exists (ck_op "3" "a"), [], (ck_op "3" "a"). split; [done|]. split; [vm_compute; reflexivity|done].
Qed.
Print Assumptions C42_sent_twice_refuted.

(** ** C64 *)
(** Every call completes normally: no assertion fires, no loop runs forever, nothing deleted is used.  The only
    exception is a check whose operation, merged with earlier ones of the history, is undefined (overflowing metrics). *)
Theorem C64_calls_complete : forall ord md5 clk cf, proper_clock clk -> forall st h call, creach ord md5 clk cf st h ->
  (exists r, cstep ord md5 clk cf call st = Ok r) \/
  (exists q first rest, call = CCheck q /\ (first :: rest) `sublist_of` all_checked h ++ [op_get (cr_operation q)] /\
     forall x, aggregate ord md5 (cc_kinds cf) first rest <> Ok x).
Proof. exact calls_complete. Qed.
Print Assumptions C64_calls_complete.
Theorem C64_destruction_completes : forall ord md5 clk cf, proper_clock clk -> forall st h, creach ord md5 clk cf st h ->
  DestroyCheckAggregator ord cf st = Ok tt.
Proof. exact destroy_complete. Qed.
Print Assumptions C64_destruction_completes.
(** Construction succeeds for all option values. *)
Theorem C64_construction_completes : forall ord md5 clk cf, proper_clock clk ->
  int32_min <= co_expiration_ms (cc_options cf) <= int32_max -> exists st, creach ord md5 clk cf st [].
Proof. exact new_complete. Qed.
Print Assumptions C64_construction_completes.
Example C64_example : ck_creach (ck_st ck_calls) (ck_h ck_calls) /\ exists r, ck_step (CCheck (ck_req "7" "b")) (ck_st ck_calls) = Ok r.
Proof. split; [creaches|]. eexists. vm_compute. reflexivity. Qed.

(** ** C65 *)
Theorem C65_stored_is_cached : forall ord md5 clk cf, proper_clock clk -> forall st h q r st' res,
  creach ord md5 clk cf st h -> 0 < co_entries (cc_options cf) ->
  cstep ord md5 clk cf (CCacheResponse q r) st = Ok (st', res) -> cached st' (sig_of ord md5 q).
Proof. exact stored_is_cached. Qed.
Print Assumptions C65_stored_is_cached.
Theorem C65_only_stored : forall ord md5 clk cf, proper_clock clk -> forall st h call st' res k,
  creach ord md5 clk cf st h -> cstep ord md5 clk cf call st = Ok (st', res) -> cached st' k -> ~ cached st k ->
  exists q r, call = CCacheResponse q r /\ sig_of ord md5 q = k.
Proof. exact only_stored. Qed.
Print Assumptions C65_only_stored.
Theorem C65_at_most_capacity : forall ord md5 clk cf, proper_clock clk -> forall st h, creach ord md5 clk cf st h ->
  exists ks, NoDup ks /\ (forall s, s ∈ ks <-> cached st s) /\ Z.of_nat (length ks) <= Z.max 0 (co_entries (cc_options cf)).
Proof. exact at_most. Qed.
Print Assumptions C65_at_most_capacity.
(** What leaves the cache leaves it by FlushAll, or was not used for longer than the expiration, or made room in a
    full cache and was the least recently used. *)
Theorem C65_why_it_leaves : forall ord md5 clk cf, proper_clock clk -> forall st h call st' res k,
  creach ord md5 clk cf st h -> cstep ord md5 clk cf call st = Ok (st', res) -> cached st k -> ~ cached st' k ->
  call = CFlushAll \/
  (exists ev t idle, most_recent (mentions ord md5 cf k) h ev /\ during clk t ev /\
     cycles_of_ms (co_expiration_ms (cc_options cf)) = Ok (Some idle) /\ idle < clk (readings st) - t) \/
  (exists q r, call = CCacheResponse q r /\ k <> sig_of ord md5 q /\
     (exists ks, NoDup ks /\ (forall s, s ∈ ks <-> cached st' s) /\ Z.of_nat (length ks) = co_entries (cc_options cf)) /\
     forall k', cached st' k' -> k' <> sig_of ord md5 q ->
       exists ev t ev' t', most_recent (mentions ord md5 cf k) h ev /\ during clk t ev /\
         most_recent (mentions ord md5 cf k') h ev' /\ during clk t' ev' /\ t <= t').
Proof. exact leaves. Qed.
Print Assumptions C65_why_it_leaves.
(** And the overdue entries do leave with every call that looks at the cache. *)
Theorem C65_overdue_leave : forall ord md5 clk cf, proper_clock clk -> forall st h call st' res k idle,
  creach ord md5 clk cf st h -> cstep ord md5 clk cf call st = Ok (st', res) -> cached st' k ->
  match call with CCheck q => eligible cf q = true | _ => True end ->
  cycles_of_ms (co_expiration_ms (cc_options cf)) = Ok (Some idle) ->
  (exists q, (call = CCheck q \/ exists r, call = CCacheResponse q r) /\ sig_of ord md5 q = k) \/
  exists ev t, most_recent (mentions ord md5 cf k) h ev /\ during clk t ev /\ clk (readings st) - t <= idle.
Proof. exact stays. Qed.
Print Assumptions C65_overdue_leave.
(** Capacity 1: storing an answer for "b" drops that for "a". *)
Example C65_example : let o := CheckOptions 1 500 1000 in let calls := take 2 ck_calls in
  creach default_order ck_md5 ck_clk (ck_cf o) (ck_state o calls) (ck_hist o calls) /\ cached (ck_state o calls) ck_sig /\
  exists st' q, cstep default_order ck_md5 ck_clk (ck_cf o) (CCacheResponse (ck_req "8" "b") (ck_pos "s")) (ck_state o calls) =
    Ok (st', CheckResult SOk None [q]) /\ ~ cached st' ck_sig.
Proof.
  split; [creaches|]. split; [eexists; split; [vm_compute; reflexivity|vm_compute; by eexists]|].
  eexists _, _. split; [vm_compute; reflexivity|]. intros (c & E & X). injection E as <-. vm_compute in X. by destruct X.
Qed.
