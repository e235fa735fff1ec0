(** C86-C87: how long the transport of the sample program must live. *)
From Verif Require Import Base Proto Signature OpAgg Lru LruSpec Timeout Agg CheckAgg CheckAggSpec QuotaAgg ReportAgg Client ClientOptions ClientSpec ClientInv ClientRun PropsCheck PropsReport PropsClient PropsClient2 Sample PropsSample SampleThreads ClientDisabled.
From Coq Require Import Ascii.
From stdpp Require Import gmap list.
Local Open Scope Z_scope.

(** ** C86 *)
(** A user who deletes the transport while a call is under way: if the call's thread has not finished its HTTP exchange,
    its next step uses freed memory, or libcurl after its cleanup; whatever went before. *)
Theorem C86_delete_during_call_refuted : forall (R : Type) network serialize (parse : bool -> string -> option R) left_over t l s q r0 k,
  sample_run network serialize parse left_over l (sample_start t) = Ok s -> ADelete ∉ l -> (k < 7)%nat ->
  sample_run network serialize parse left_over (l ++ ACall q r0 :: replicate k (AStep (length (made l))) ++ [ADelete; AStep (length (made l))]) (sample_start t) = UB UseAfterFree.
Proof. intros * H Hd. by apply (delete_during network serialize parse left_over t l s q r0 k H Hd). Qed.
Print Assumptions C86_delete_during_call_refuted.
(** So does a user who makes another call. *)
Theorem C86_call_after_delete_refuted : forall (R : Type) network serialize (parse : bool -> string -> option R) left_over t l s q r0,
  sample_run network serialize parse left_over l (sample_start t) = Ok s -> ADelete ∈ l ->
  sample_run network serialize parse left_over (l ++ [ACall q r0]) (sample_start t) = UB UseAfterFree.
Proof. intros *. apply call_after_delete. Qed.
Print Assumptions C86_call_after_delete_refuted.
(** Missing: that the transport may be deleted at any time.  Proved: a user who deletes it only when every call is
    answered, and makes no call after that, never meets undefined behaviour, in any schedule. *)
Theorem C86_safe_when_answered_partial : forall (R : Type) network serialize (parse : bool -> string -> option R) left_over t l,
  deleted_when_answered network serialize parse left_over t l -> exists s, sample_run network serialize parse left_over l (sample_start t) = Ok s.
Proof. intros *. apply deletion_safe. Qed.
Print Assumptions C86_safe_when_answered_partial.
(** In every schedule no call is answered twice, and each answer is what the function of Sample.v computes, alone, from
    the request, the response object and what the network does with that call's own post. *)
Theorem C86_answered_once : forall (R : Type) network serialize (parse : bool -> string -> option R) left_over t l s,
  sample_run network serialize parse left_over l (sample_start t) = Ok s -> NoDup (answered_calls s) /\
  forall n st r, (n, st, r) ∈ s_done s -> exists q r0, made l !! n = Some (q, r0) /\ (st, r) = answer_to network serialize parse left_over t n q r0.
Proof. intros *. apply answered_once. Qed.
Print Assumptions C86_answered_once.
(** Every call whose thread gets to run is answered, whatever the other threads do. *)
Theorem C86_every_call_answered : forall (R : Type) network serialize (parse : bool -> string -> option R) left_over t l1 l2 s n,
  sample_run network serialize parse left_over (l1 ++ l2) (sample_start t) = Ok s -> (n < length (made l1))%nat -> (10 <= turns n l2)%nat -> n ∈ answered_calls s.
Proof. intros *. apply answered_all. Qed.
Print Assumptions C86_every_call_answered.
(** Every answered call has posted one request, its own, to the address of its kind. *)
Theorem C86_posted_once : forall (R : Type) network serialize (parse : bool -> string -> option R) left_over server service token l s,
  sample_run network serialize parse left_over l (sample_start (NewCurlTransport server service token)) = Ok s -> NoDup (s_posts s).*1 /\
  (forall n p, (n, p) ∈ s_posts s -> exists q r0, made l !! n = Some (q, r0) /\
     p = post_of (server +:+ "/v1/services/" +:+ service +:+ match q with SqCheck _ => ":check" | SqReport _ => ":report" end) ("Authorization: Bearer " +:+ token) (serialize q)) /\
  (forall n, n ∈ answered_calls s -> n ∈ (s_posts s).*1).
Proof. intros *. apply posted_to. Qed.
Print Assumptions C86_posted_once.
(** Every call leaves memory behind: the header list is never freed, not even by deleting the transport. *)
Theorem C86_headers_leak_refuted : forall (R : Type) network serialize (parse : bool -> string -> option R) left_over t l s n,
  sample_run network serialize parse left_over l (sample_start t) = Ok s -> (forall m, (m < length (made l))%nat -> m ∈ answered_calls s) ->
  (n < length (made l))%nat -> s_heap s !! at_header n 0 = Some (OString "Content-Type: application/x-protobuf").
Proof. intros * H Hall Hn. apply (memory_left network serialize parse left_over t l s H Hall). exists n, 0%nat. by eexists. Qed.
Print Assumptions C86_headers_leak_refuted.
(** Missing: that a call leaves nothing behind.  Proved: it leaves nothing but the three strings of its header list. *)
Theorem C86_memory_left_partial : forall (R : Type) network serialize (parse : bool -> string -> option R) left_over t l s,
  sample_run network serialize parse left_over l (sample_start t) = Ok s -> (forall n, (n < length (made l))%nat -> n ∈ answered_calls s) ->
  forall a o, s_heap s !! a = Some o <-> exists n i x, (n < length (made l))%nat /\ a = at_header n i /\ o = OString x /\
    ["Content-Type: application/x-protobuf"%string; "X-GFE-SSL: yes"%string; c_string (lt_auth t)] !! i = Some x.
Proof. intros *. apply memory_left. Qed.
Print Assumptions C86_memory_left_partial.
(** Two calls whose threads take turns; the second post gets an answer that is no response. *)
Definition st_net (n : nat) (p : http_post) : http_answer := match n with O => HttpAnswer [] 0 200 | _ => HttpAnswer ["?"%string] 0 200 end.
Definition st_ser (q : sample_request) : string := match q with SqCheck _ => "check" | SqReport _ => "report" end.
Definition st_run (l : list (sact (R := check_response))) : outcome (sworld (R := check_response)) := sample_run st_net st_ser (fun _ => parse_any) (fun _ r => r) l (sample_start sample_t).
Definition st_r0 : check_response := CheckResponse [] "old".
Definition st_calls : list (sact (R := check_response)) := [ACall (SqCheck (ck_req "1" "a")) st_r0; AStep 0; ACall (SqReport (ReportRequest "svc" [] "")) st_r0].
Definition st_turns : list (sact (R := check_response)) := mjoin (replicate 10 [AStep 1; AStep 0]).
Example C86_example :
  (exists s, st_run (st_calls ++ st_turns ++ [ADelete; AStep 0]) = Ok s /\
     s_done s = [(0%nat, SOk, CheckResponse [] ""); (1%nat, SInvalidArgument, st_r0)] /\
     s_posts s = [(0%nat, post_of "https://servicecontrol.googleapis.com/v1/services/svc:check" "Authorization: Bearer token" "check");
                  (1%nat, post_of "https://servicecontrol.googleapis.com/v1/services/svc:report" "Authorization: Bearer token" "report")] /\
     size (s_heap s) = 6%nat) /\
  deleted_when_answered st_net st_ser (fun _ => parse_any) (fun _ r => r) sample_t (st_calls ++ st_turns ++ [ADelete; AStep 0]) /\
  (10 <= turns 0 st_turns)%nat /\ (10 <= turns 1 st_turns)%nat /\
  st_run (st_calls ++ [AStep 1; ADelete; AStep 1]) = UB UseAfterFree.
Proof.
  assert (E : exists s, st_run (st_calls ++ st_turns) = Ok s /\ answered_calls s = [0; 1]%nat) by (eexists; split; vm_compute; reflexivity).
  split; [eexists; split; [vm_compute; reflexivity|split; [reflexivity|split; vm_compute; reflexivity]]|]. split; [|split; [vm_compute; lia|split; [vm_compute; lia|vm_compute; reflexivity]]].
  intros l1 l2 Hl.
  assert (Hs : l1 = st_calls ++ st_turns /\ l2 = [AStep 0]).
  { change (st_calls ++ st_turns ++ [ADelete; AStep 0]) with ((st_calls ++ st_turns) ++ ADelete :: [AStep 0]) in Hl.
    assert (Hn : forall a : list (sact (R := check_response)), a = st_calls ++ st_turns \/ a = [AStep 0] -> ADelete ∉ a) by (intros a [-> | ->] Hin; vm_compute in Hin; repeat (apply elem_of_cons in Hin as [Hin|Hin]; [discriminate Hin|]); by apply elem_of_nil in Hin).
    destruct (app_eq_inv _ _ _ _ Hl) as [(k & E1 & E2)|(k & E1 & E2)].
    - destruct k as [|a k]; [rewrite app_nil_r in E1; injection E2 as E2; done|]. injection E2 as <- E2. exfalso. apply (Hn (st_calls ++ st_turns)); [by left|]. rewrite E1. apply elem_of_app. right. constructor.
    - destruct k as [|a k]; [rewrite app_nil_r in E1; injection E2 as E2; done|]. injection E2 as <- E2. exfalso. apply (Hn [AStep 0]); [by right|]. rewrite E2. apply elem_of_app. right. constructor. }
  destruct Hs as [-> ->]. split; [repeat constructor; by eexists|]. intros s n Hr Hn. destruct E as (s' & E1 & E2). unfold st_run in E1. rewrite Hr in E1. injection E1 as <-. rewrite E2.
  change (n < 2)%nat in Hn. destruct n as [|[|n]]; [left|right; left|lia].
Qed.

(** ** C87 *)
(** The sample program deletes the transport before the client.  That is a mistake in a program whose caches are enabled:
    all calls are done and all that was sent is answered, and yet the client's destructor calls the transport. *)
Theorem C87_enabled_refuted : exists ths w l1 l2,
  cl_reach (ths, w) /\ w_crash w = None /\ w_trace w = l1 ++ l2 /\
  (forall c, c ∈ started (w_trace w) -> c ∈ done l1) /\ (forall i, i ∈ sent l1 -> i ∈ answered l1) /\ sample_calls l2 <> [].
Proof.
  exists (cl_after cl_destroyed).1, (cl_after cl_destroyed).2, (w_trace cl_all_s.2), (drop (length (w_trace cl_all_s.2)) (w_trace (cl_after cl_destroyed).2)).
  split; [cl_reaches|]. split; [vm_compute; reflexivity|]. split; [vm_compute; reflexivity|].
  assert (started (w_trace (cl_after cl_destroyed).2) = done (w_trace cl_all_s.2)) as -> by (vm_compute; reflexivity).
  assert (sent (w_trace cl_all_s.2) = answered (w_trace cl_all_s.2)) as -> by (vm_compute; reflexivity).
  split; [done|]. split; [done|]. assert (length (sample_calls (drop (length (w_trace cl_all_s.2)) (w_trace (cl_after cl_destroyed).2))) = 2%nat) as E by (vm_compute; reflexivity).
  intros E0. rewrite E0 in E. discriminate E.
Qed.
Print Assumptions C87_enabled_refuted.
(** Missing: clients with a cache.  Proved: one with both caches disabled calls the check or report transport only for a
    call of the user that has been made and is not done. *)
Theorem C87_disabled_only_for_calls_partial : forall debug ord md5 clk cf, (forall k, proper_clock (clk k)) -> forall ths w l1 t i o q l2,
  reach debug ord md5 clk cf (ths, w) -> w_crash w = None ->
  co_entries (cc_options (cf_checks cf)) <= 0 -> ro_entries (rc_options (cf_reports cf)) <= 0 ->
  w_trace w = l1 ++ ETransport t i o q :: l2 -> kind_of q <> KQuota -> exists c, o = FromCall c /\ c ∈ started l1 /\ c ∉ done l1.
Proof. intros *. apply disabled_transport. Qed.
Print Assumptions C87_disabled_only_for_calls_partial.
(** So, once every call that is made at all is done, the client does not use the transport again, and the user may delete it. *)
Theorem C87_disabled_quiet_partial : forall debug ord md5 clk cf, (forall k, proper_clock (clk k)) -> forall ths w l1 l2,
  reach debug ord md5 clk cf (ths, w) -> w_crash w = None ->
  co_entries (cc_options (cf_checks cf)) <= 0 -> ro_entries (rc_options (cf_reports cf)) <= 0 ->
  w_trace w = l1 ++ l2 -> (forall c, c ∈ started (w_trace w) -> c ∈ done l1) -> sample_calls l2 = [].
Proof. intros *. apply disabled_quiet. Qed.
Print Assumptions C87_disabled_quiet_partial.
(** What http_sample.cc does, with a client like its own: a check and a report, each sent and answered; then the client
    is destroyed. *)
Definition sm_cf : client_config := ClientConfig "svc" "" (CheckOptions (-1) 1000 1001) default_quota_options (NewReportOptions (-1) 1000) None (fun k => if decide (k = KQuota) then false else true) true.
Definition sm_calls : list act :=
  [Do 0 Go; Do 0 (Call (cl_check "1" "a")); Run 0 100; Do 0 (Call (cl_report [rp_op "1" "a" 1])); Run 0 100;
   Do 1 Go; Do 1 (Complete 0 SOk (RpCheck (ck_pos "r"))); Run 1 100; Do 1 Leave; Run 1 100; Do 1 (Complete 0 SOk RpNone); Run 1 100; Do 1 Leave; Run 1 100].
Definition sm_s := after cl_clk sm_cf (sm_calls ++ [Do 0 Destroy; Run 0 100]).
Example C87_example : reach true default_order ck_md5 cl_clk sm_cf (sm_s.1, sm_s.2) /\ w_crash sm_s.2 = None /\ (forall k, proper_clock (cl_clk k)) /\
  co_entries (cc_options (cf_checks sm_cf)) <= 0 /\ ro_entries (rc_options (cf_reports sm_cf)) <= 0 /\
  brief <$> w_trace sm_s.2 =
    [("start", 0); ("check", 0); ("agg_return", 0); ("send", 0); ("return", 0); ("start", 1); ("report", 0); ("agg_return", 0); ("send", 1); ("return", 1);
     ("completed", 0); ("check", 1); ("agg_return", 1); ("done", 0); ("completed", 1); ("done", 1);
     ("destroy", 0); ("check", 2); ("agg_return", 2); ("quota", 0); ("agg_return", 0); ("report", 1); ("agg_return", 1);
     ("disconnect", 0); ("disconnect", 0); ("disconnect", 0); ("freed", 0)]%string%nat /\
  started (w_trace sm_s.2) = [0; 1]%nat /\ done (take 16 (w_trace sm_s.2)) = [0; 1]%nat /\ length (sample_calls (w_trace sm_s.2)) = 2%nat.
Proof.
  split; [cl_reaches|]. split; [vm_compute; reflexivity|]. split; [apply cl_table; repeat constructor; done|split; [vm_compute; discriminate|split; [vm_compute; discriminate|]]].
  split_and!; vm_compute; reflexivity.
Qed.
