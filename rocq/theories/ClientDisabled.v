(** A client whose check and report caches are disabled sends nothing of its own accord. *)
From Verif Require Import Base Proto Signature OpAgg OpAggSpec Lru LruSpec Timeout Agg CheckAgg CheckAggSpec CheckAggClaims QuotaAgg QuotaAggSpec ReportAgg ReportAggSpec ReportAggClaims.
From Verif Require Import Client ClientSpec ClientInv ClientCalls ClientStage ClientEnd ClientFacts ClientClaims ClientDrain Sample SampleThreads.
From stdpp Require Import gmap list.
Local Open Scope Z_scope.
Set Implicit Arguments.

(** ** Specification *)
(** The calls that a client's trace makes to a transport like that of the sample program, which has no method for
    quota. *)
Definition sample_calls (tr : list event) : list sample_request :=
  tr ≫= fun ev => match ev with ETransport _ _ _ (RqCheck q) => [SqCheck q] | ETransport _ _ _ (RqReport q) => [SqReport q] | _ => [] end.

Section disabled.
Variable debug : bool.
Variable ord : hash_order.
Variable md5 : string -> string.
Variable clk : kind -> nat -> Z.
Variable cf : client_config.
Notation reach := (reach debug ord md5 clk cf).
Hypothesis Hclk : forall k, proper_clock (clk k).

Lemma check_items a : removed_items KCheck a = RqCheck <$> flushed (ag_hc a).
Proof. unfold removed_items, flushed. cbn [calls]. induction (ag_hc a) as [|ev h IH]; [done|]. rewrite fmap_cons, !bind_cons, fmap_app, IH. done. Qed.

Lemma disabled_no_flush ths w k : reach (ths, w) -> w_crash w = None ->
  match k with KCheck => co_entries (cc_options (cf_checks cf)) <= 0 | KReport => ro_entries (rc_options (cf_reports cf)) <= 0 | KQuota => False end ->
  sent_by_flush k (w_trace w) = [].
Proof.
  intros R Hc Hk.
  assert (E : removed_items k (w_aggs w) = []).
  { destruct (reach_sequential R) as (S1 & _ & S3). destruct k; [|done|].
    - rewrite check_items. pose (o := Operation "" "" "" None None ∅ [] [] 0 ""). 
      destruct (check_disabled (Hclk KCheck) (CheckRequest (cc_service (cf_checks cf)) (Some o) "" "") (o := o) S1 Hk eq_refl eq_refl) as [_ ->]. done.
    - rewrite report_items. destruct (report_disabled (Hclk KReport) (ReportRequest (rc_service (cf_reports cf)) [] "") S3 Hk eq_refl) as (_ & _ & ->). done. }
  pose proof (items_conserved k R Hc) as P1. rewrite E in P1. symmetry in P1. apply Permutation_nil in P1.
  pose proof (sends_conserved k R Hc) as P2. apply app_eq_nil in P1 as [_ P1]. apply app_eq_nil in P1 as [P1 _]. rewrite P1 in P2.
  symmetry in P2. apply Permutation_nil in P2. by apply app_eq_nil in P2 as [_ ?].
Qed.

Definition of_started tr ev : Prop := match ev with ETransport _ _ (FromCall c) _ => c ∈ started tr | _ => True end.
Lemma transport_started ths w : reach (ths, w) -> each_event of_started (w_trace w).
Proof.
  revert ths w. refine (reach_ind' (fun ths w => each_event of_started (w_trace w)) _ _ _); [|done|].
  - intros a _ l1 ev l2 E. by destruct l1.
  - intros ths w t i rest new w' R IH _ Ht E.
    assert (Hs : forall c q f, i = ITransport (FromCall c) q f -> c ∈ started (w_trace w)).
    { intros c q f ->. destruct (st_each (proj1 (reach_staged R)) _ Ht (elem_of_list_here _ _)) as (a & n & r & (_ & _ & Hs) & _).
      unfold started. apply elem_of_list_bind. exists (EStart t c a). split; [by apply elem_of_list_singleton|]. by eapply story_start. }
    destruct E; wsimpl; try done; try (apply each_event_snoc; [done|]); try done.
    + destruct o as [c|k m]; [|done]. by eapply Hs.
    + apply each_event_snoc; [|done]. apply each_event_snoc; [done|]. destruct o as [c|k m]; [|done]. by eapply Hs.
Qed.

Lemma story_app c l1 l2 : story c (l1 ++ l2) = story c l1 ++ story c l2.
Proof. unfold story. by rewrite bind_app. Qed.
Lemma done_elem c tr : c ∈ done tr -> exists t s r, EDone t c s r ∈ tr.
Proof. unfold done. rewrite elem_of_list_bind. intros ([] & H1 & H2); try (by apply elem_of_nil in H1). apply elem_of_list_singleton in H1 as ->. eauto. Qed.

(** The events of a call after it is done: none. *)
Lemma done_last ths w l1 l2 c : reach (ths, w) -> w_trace w = l1 ++ l2 -> c ∈ done l1 -> story c l2 = [].
Proof.
  intros R E (t & s & r & H)%done_elem.
  assert (Hd : c ∈ done (w_trace w)). { rewrite E. unfold done. apply elem_of_list_bind. exists (EDone t c s r). split; [by apply elem_of_list_singleton|]. apply elem_of_app. by left. }
  destruct (call_done R Hd) as (t' & a & s' & r' & l & _ & Hset & Hst). rewrite E, story_app in Hst.
  assert (Hn : forall t s r, EDone t c s r ∉ l). { intros t1 s1 r1 Hin. destruct Hset; rewrite ?elem_of_cons, ?elem_of_nil in Hin; naive_solver. }
  assert (H1 : EDone t c s r ∈ story c l1). { apply story_elem; [cbn; apply Nat.eqb_refl|done]. }
  destruct (story c l2) as [|ev l3 _] eqn:E2 using rev_ind; [done|]. exfalso.
  rewrite app_assoc in Hst. apply app_inj_tail in Hst as [Hst _]. apply (Hn t s r). rewrite <- Hst. apply elem_of_app. by left.
Qed.

Lemma disabled_transport ths w l1 t i o q l2 : reach (ths, w) -> w_crash w = None ->
  co_entries (cc_options (cf_checks cf)) <= 0 -> ro_entries (rc_options (cf_reports cf)) <= 0 ->
  w_trace w = l1 ++ ETransport t i o q :: l2 -> kind_of q <> KQuota -> exists c, o = FromCall c /\ c ∈ started l1 /\ c ∉ done l1.
Proof.
  intros R Hc H1 H2 E Hq. assert (Hin : ETransport t i o q ∈ w_trace w) by (rewrite E; apply elem_of_app; right; constructor).
  destruct o as [c|k n].
  - exists c. split; [done|]. split; [exact (transport_started R _ _ _ E)|]. intros Hd. pose proof (done_last l1 _ R E Hd) as Hs.
    unfold story in Hs. rewrite bind_cons in Hs. cbn in Hs. by rewrite Nat.eqb_refl in Hs.
  - exfalso. pose proof (flush_kind R Hin) as Hk. rewrite Hk in Hq.
    assert (Hn : sent_by_flush k (w_trace w) = []). { apply (disabled_no_flush k R Hc). by destruct k. }
    assert (Hq' : q ∈ sent_by_flush k (w_trace w)).
    { unfold sent_by_flush. apply elem_of_list_bind. eexists. split; [|exact Hin]. cbn. rewrite ?Hk. destruct (decide (k = k)); [|done]. by apply elem_of_list_singleton. }
    rewrite Hn in Hq'. by apply elem_of_nil in Hq'.
Qed.

Lemma disabled_quiet ths w l1 l2 : reach (ths, w) -> w_crash w = None ->
  co_entries (cc_options (cf_checks cf)) <= 0 -> ro_entries (rc_options (cf_reports cf)) <= 0 ->
  w_trace w = l1 ++ l2 -> (forall c, c ∈ started (w_trace w) -> c ∈ done l1) -> sample_calls l2 = [].
Proof.
  intros R Hc H1 H2 E Hall. destruct (sample_calls l2) as [|q l] eqn:Es; [done|]. exfalso.
  assert (Hq : q ∈ sample_calls l2) by (rewrite Es; constructor).
  unfold sample_calls in Hq. apply elem_of_list_bind in Hq as (ev & Hq & (m1 & m2 & ->)%elem_of_list_split).
  destruct ev as [| | | | |t i o rq| | | | | | |]; try (by apply elem_of_nil in Hq).
  rewrite app_assoc in E. destruct (disabled_transport (l1 ++ m1) t i o rq m2 R Hc H1 H2 E) as (c & _ & Hs & Hd).
  { by destruct rq; try (by apply elem_of_nil in Hq). }
  apply Hd. unfold done. rewrite bind_app. apply elem_of_app. left. apply Hall. rewrite E. unfold started. rewrite bind_app. apply elem_of_app. by left.
Qed.
End disabled.
