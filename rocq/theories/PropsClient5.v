(** C92: the quota of the callers of the client, from end to end.  [cache_grants] are the operations of the Quota calls that
    were told OK, with an answer without errors, although nothing was sent for the call. *)
From Verif Require Import Base Proto Signature OpAgg OpAggSpec Lru LruSpec Timeout TimeoutProofs Agg CheckAgg CheckAggSpec QuotaAgg QuotaAggSpec ReportAgg ReportAggSpec.
From Verif Require Import Client ClientSpec ClientWhole ClientQuota PropsCheck PropsQuota PropsReport ClientRun PropsClient PropsClient3 PropsClient4.
From stdpp Require Import gmap list.
Local Open Scope Z_scope.

(** When nothing is running, for every metric: what was granted, and what repeats an earlier request of a caller, is what
    the flushes sent, what could not be sent because the client was being destroyed, what the cache still holds, and what was
    lost.  Nothing is lost while no entry leaves the cache and no answer with errors is stored. *)
Theorem C92_tokens_partial : forall debug ord md5 clk cf ths w, reach debug ord md5 clk cf (ths, w) -> w_crash w = None -> nothing_running ths ->
  proper_clock (clk KQuota) ->
  (forall t c a q, EStart t c a ∈ w_trace w -> ap_request a = RqQuota q -> simple_quota (qop_get (qr_operation q))) ->
  exists resent lost,
    (forall q, q ∈ resent -> repeats_call (w_trace w) q /\ q ∈ sent_by_flush KQuota (w_trace w) ++ dropped KQuota (w_trace w)) /\
    (forall o, o ∈ lost -> o ∈ cache_grants (w_trace w)) /\
    (nothing_leaves (ag_hq (w_aggs w)) -> never_denied (ag_hq (w_aggs w)) -> lost = []) /\
    forall name, tokens name (cache_grants (w_trace w)) + tokens name (quota_operations resent) =
      tokens name (quota_operations (sent_by_flush KQuota (w_trace w))) + tokens name (quota_operations (dropped KQuota (w_trace w))) +
      tokens name (accumulated ord (ag_quota (w_aggs w))) + tokens name lost.
Proof. exact quota_tokens. Qed.
Print Assumptions C92_tokens_partial.
(** The operations granted to callers without asking the server are exactly those that the cache granted. *)
Theorem C92_granted_once : forall debug ord md5 clk cf ths w, reach debug ord md5 clk cf (ths, w) -> w_crash w = None -> nothing_running ths ->
  cache_grants (w_trace w) ≡ₚ granted (ag_hq (w_aggs w)).
Proof. exact grants_permutation. Qed.
Print Assumptions C92_granted_once.
(** Every request that the cache hands out is sent, once: all of them if the client is not destroyed, or not while a quota
    call is under way. *)
Theorem C92_all_sent : forall debug ord md5 clk cf ths w, reach debug ord md5 clk cf (ths, w) -> w_crash w = None -> nothing_running ths ->
  undisturbed KQuota (w_trace w) ->
  dropped KQuota (w_trace w) = [] /\ sent_by_flush KQuota (w_trace w) ≡ₚ RqQuota <$> qflushed (ag_hq (w_aggs w)).
Proof. exact all_sent. Qed.
Print Assumptions C92_all_sent.
(** What was granted is not always charged: a client with two grants is destroyed; it sent the first one only, nothing is
    waiting, and the cache is empty. *)
Definition cl_quota_calls : list act := [Do 0 Go; Do 0 (Call (cl_quota "1" "a" 1))] ++ cl_fin ++ [Do 0 (Complete 0 SOk (RpQuota qk_ok)); Run 0 100] ++ [Do 0 (Call (cl_quota "2" "a" 2))] ++ cl_fin.
Definition cl_quota_gone_s := cl_after (cl_quota_calls ++ [Do 0 Destroy; Run 0 100]).
Theorem C92_shutdown_refuted : exists md5 clk cf ths w, proper_clock (clk KQuota) /\ reach true default_order md5 clk cf (ths, w) /\ w_crash w = None /\ nothing_running ths /\
  (exists t, EFreed t ∈ w_trace w) /\ (forall s, s ∈ sent (w_trace w) -> s ∈ answered (w_trace w)) /\
  tokens "m" (cache_grants (w_trace w)) = 3 /\ tokens "m" (quota_operations (sent_of KQuota (w_trace w))) = 1.
Proof.
  exists ck_md5, cl_clk, cl_cf, cl_quota_gone_s.1, cl_quota_gone_s.2.
  split. { apply sorted_table; repeat constructor; lia. } split; [cl_reaches|]. split; [vm_compute; reflexivity|].
  split. { assert (cl_quota_gone_s.1 = [[IUser]]) as -> by (vm_compute; reflexivity). repeat constructor. }
  split. { exists 0%nat. apply elem_of_list_In. vm_compute. tauto. }
  split. { assert (sent (w_trace cl_quota_gone_s.2) = answered (w_trace cl_quota_gone_s.2)) as -> by (vm_compute; reflexivity). done. }
  split; vm_compute; reflexivity.
Qed.
Print Assumptions C92_shutdown_refuted.
Definition cl_quotas_s := cl_after cl_quota_calls.
Definition started_apis (tr : list event) : list api := tr ≫= fun ev => match ev with EStart _ _ a => [a] | _ => [] end.
Definition disconnects (tr : list event) : list nat := tr ≫= fun ev => match ev with EDisconnect t KQuota => [t] | _ => [] end.
Fixpoint undisturbed_in (k : kind) (all before rest : list event) : bool :=
  match rest with
  | [] => true
  | ev :: rest =>
    (match ev with
     | EDisconnect _ k' => if decide (k' = k) then forallb (fun e => match e with EAgg t k1 n _ => if decide (k1 = k) then existsb (fun e' => match e' with EAggReturn t' k2 m => Nat.eqb t' t && bool_decide (k2 = k) && Nat.eqb m n | _ => false end) before else true | _ => true end) all else true
     | _ => true
     end) && undisturbed_in k all (before ++ [ev]) rest
  end.
Lemma undisturbed_spec k tr : undisturbed_in k tr [] tr = true -> undisturbed k tr.
Proof.
  intros H t l1 l2 E t' n u Hin. assert (forall before rest, undisturbed_in k tr before (rest ++ EDisconnect t k :: l2) = true -> EAggReturn t' k n ∈ before ++ rest) as G.
  { intros before rest. revert before. induction rest as [|ev rest IH]; intros before Hu; cbn [app undisturbed_in] in Hu; apply andb_true_iff in Hu as [H1 H2].
    - rewrite app_nil_r. destruct (decide (k = k)); [|done]. rewrite forallb_forall in H1. apply elem_of_list_In in Hin. specialize (H1 _ Hin). cbn in H1. destruct (decide (k = k)); [|done].
      apply existsb_exists in H1 as (e1 & H3 & H4). destruct e1; try done. apply andb_true_iff in H4 as [[->%Nat.eqb_eq ->%bool_decide_eq_true]%andb_true_iff ->%Nat.eqb_eq]. by apply elem_of_list_In.
    - specialize (IH _ H2). by rewrite <- app_assoc in IH. }
  apply (G []). by rewrite <- E.
Qed.
Definition cl_quota_ev (n : nat) : quota_event := nth n (ag_hq (w_aggs cl_quotas_s.2)) qk_no_event.
Example C92_example : proper_clock (cl_clk KQuota) /\ cl_reach (cl_quotas_s.1, cl_quotas_s.2) /\ w_crash cl_quotas_s.2 = None /\ nothing_running cl_quotas_s.1 /\
  (forall t c a q, EStart t c a ∈ w_trace cl_quotas_s.2 -> ap_request a = RqQuota q -> simple_quota (qop_get (qr_operation q))) /\
  undisturbed KQuota (w_trace cl_quotas_s.2) /\ undisturbed KQuota (w_trace cl_quota_gone_s.2) /\ disconnects (w_trace cl_quota_gone_s.2) = [0%nat] /\
  nothing_leaves (ag_hq (w_aggs cl_quotas_s.2)) /\ never_denied (ag_hq (w_aggs cl_quotas_s.2)) /\
  tokens "m" (cache_grants (w_trace cl_quotas_s.2)) = 3 /\ tokens "m" (quota_operations (sent_by_flush KQuota (w_trace cl_quotas_s.2))) = 1 /\
  tokens "m" (accumulated default_order (ag_quota (w_aggs cl_quotas_s.2))) = 2.
Proof.
  split. { apply sorted_table; repeat constructor; lia. } split; [cl_reaches|]. split; [vm_compute; reflexivity|].
  split. { assert (cl_quotas_s.1 = [[IUser]]) as -> by (vm_compute; reflexivity). repeat constructor. }
  split. { intros t c a q Hs Ha. assert (a ∈ [cl_quota "1" "a" 1; cl_quota "2" "a" 2]) as Hin.
    { assert (started_apis (w_trace cl_quotas_s.2) = [cl_quota "1" "a" 1; cl_quota "2" "a" 2]) as <- by (vm_compute; reflexivity). apply elem_of_list_bind. exists (EStart t c a). split; [constructor|done]. }
    rewrite !elem_of_cons, elem_of_nil in Hin. destruct Hin as [->|[->|[]]]; cbn in Ha; injection Ha as <-; intros s Hin; apply elem_of_list_singleton in Hin as ->; by eexists _, _. }
  split. { apply undisturbed_spec. vm_compute. reflexivity. }
  split. { apply undisturbed_spec. vm_compute. reflexivity. }
  split; [vm_compute; reflexivity|].
  split. { apply (one_kept (qsig ck_md5 (qk_req "1" "a" 1)) 0%nat). assert (ag_hq (w_aggs cl_quotas_s.2) = cl_quota_ev <$> seq 0 3) as -> by (vm_compute; reflexivity). cbn [seq fmap list_fmap].
    one_entry 0%nat. one_entry 0%nat. one_entry 0%nat. apply Forall_nil_2. }
  split. { eapply qk_granting; [vm_compute; reflexivity|]. repeat constructor. }
  split_and!; vm_compute; reflexivity.
Qed.
