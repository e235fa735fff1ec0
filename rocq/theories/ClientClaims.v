(** The properties of the client in the form in which PropsClient.v states them. *)
From Verif Require Import Base Proto Signature OpAgg Lru Timeout Agg CheckAgg CheckAggSpec QuotaAgg QuotaAggSpec ReportAgg ReportAggSpec Client ClientSpec ClientInv ClientCalls ClientStage ClientLocks ClientLive ClientFlush ClientEnd ClientCount ClientFacts ClientCache ClientQuiet.
From stdpp Require Import gmap list.
Local Open Scope Z_scope.
Set Implicit Arguments.

Section claims.
Variable debug : bool.
Variable ord : hash_order.
Variable md5 : string -> string.
Variable clk : kind -> nat -> Z.
Variable cf : client_config.
Notation step := (step debug ord md5 clk cf).
Notation reach := (reach debug ord md5 clk cf).
Notation estep := (estep debug ord md5 clk cf).
Implicit Types (w : world) (t : nat) (i : instr) (ths : list (list instr)) (tr : list event).

(** C54 *)
Lemma handled_elem k n tr t x : (t, x) ∈ handled k n tr <->
  match x with Gave q => ECallback t k n q ∈ tr | Dropped q => EDropped t k n q ∈ tr | Returned => EAggReturn t k n ∈ tr end.
Proof.
  unfold handled. rewrite elem_of_list_bind. split.
  - intros (ev & H & Hin). destruct ev; try (by apply elem_of_nil in H); case_bool_decide as Hb; try (by apply elem_of_nil in H);
      apply elem_of_list_singleton in H; injection H as -> ->; destruct Hb as [-> ->]; exact Hin.
  - intros H. destruct x; eexists; (split; cycle 1; [exact H|]); cbv beta iota; (rewrite bool_decide_true; [constructor|done]).
Qed.
(** What a flush event needs to have happened before. *)
Lemma after_body ths w l1 ev l2 t k n : reach (ths, w) -> w_trace w = l1 ++ ev :: l2 ->
  (exists q, ev = ECallback t k n q) \/ (exists q, ev = EDropped t k n q) \/ ev = EAggReturn t k n -> exists u, EAgg t k n u ∈ l1.
Proof.
  intros R E H. pose proof (reach_after_agg R _ _ _ E) as A. destruct H as [(q & ->)|[(q & ->)| ->]]; exact A.
Qed.

(** C55 *)
Lemma once ths w : reach (ths, w) -> NoDup (done (w_trace w)) /\ forall c, c ∈ done (w_trace w) -> c ∈ started (w_trace w).
Proof. intros R. destruct (done_sub R) as [H1 H2]. split; [done|]. intros c. apply H2. Qed.
Lemma exactly_once ths w : reach (ths, w) -> w_crash w = None -> nothing_running ths -> (forall m, m ∈ sent (w_trace w) -> m ∈ answered (w_trace w)) ->
  NoDup (started (w_trace w)) /\ done (w_trace w) ≡ₚ started (w_trace w).
Proof.
  intros R Hc Hn Hs. split; [by eapply started_NoDup|]. eapply all_done; [exact R|done|done|]. destruct (sent_seq R) as [E P].
  assert (NoDup (sent (w_trace w))) as N. { rewrite E. apply NoDup_seq. }
  assert (NoDup ((w_pending w).*1 ++ answered (w_trace w))) as N2 by by rewrite P.
  apply NoDup_app in N2 as (_ & N2 & N3). destruct ((w_pending w).*1) as [|m l] eqn:El; [by rewrite <- P|].
  exfalso. apply (N2 m); [constructor|]. apply Hs. rewrite <- P. constructor.
Qed.
Lemma at_return ths w l1 t c l2 : reach (ths, w) -> w_trace w = l1 ++ EReturn t c :: l2 ->
  exists t' a, EStart t' c a ∈ l1 /\ (ap_blocking a = true -> c ∈ done l1) /\ (c ∈ done l1 \/ exists t' m q, ETransport t' m (FromCall c) q ∈ l1).
Proof.
  intros R E. pose proof (reach_returns R _ _ _ E) as [(t' & a & H1 & H2) H3]. exists t', a. done.
Qed.
Lemma answer ths w t c s r : reach (ths, w) -> EDone t c s r ∈ w_trace w ->
  exists a l, settled cf w c a s r l /\ story c (w_trace w) = l ++ [EDone t c s r].
Proof. intros R H. destruct (reach_staged R) as [S _]. by apply (st_done S). Qed.

(** C56 *)
Definition expected_statistics tr : statistics :=
  Statistics
    (KindStatistics (calls_made KCheck tr) (Z.of_nat (length (sent_by_flush KCheck tr))) (Z.of_nat (length (sent_for_calls KCheck tr))))
    (KindStatistics (calls_made KQuota tr) (Z.of_nat (length (sent_by_flush KQuota tr))) (Z.of_nat (length (sent_for_calls KQuota tr))))
    (KindStatistics (calls_made KReport tr) (Z.of_nat (length (sent_by_flush KReport tr))) (Z.of_nat (length (sent_for_calls KReport tr))))
    (Z.of_nat (length (report_operations (sent_for_calls KReport tr ++ sent_by_flush KReport tr)))).
Lemma statistics_exact ths w : reach (ths, w) -> w_crash w = None -> nothing_running ths -> GetStatistics w = expected_statistics (w_trace w).
Proof.
  intros R Hc Hn. unfold GetStatistics, expected_statistics. 
  assert (forall x, w_count w x = expected x (w_trace w)) as G by (intros x; eapply counted_exactly; [exact R|exact Hc|exact Hn]).
  rewrite !G. reflexivity.
Qed.
(** All requests of a kind that were sent. *)
Lemma new_transport_any t w i new w' t1 m o q : estep t w i new w' -> ETransport t1 m o q ∈ w_trace w' -> ETransport t1 m o q ∈ w_trace w \/ exists f, i = ITransport o q f.
Proof.
  intros E. destruct E; wsimpl; try (by left); rewrite !elem_of_app, !elem_of_list_singleton; intros Hin; destruct_or? Hin; try (by left); try done; injection Hin as E1 E2 E3 E4; subst; eauto.
Qed.
Lemma flush_kind ths w t m k n q : reach (ths, w) -> ETransport t m (FromFlush k n) q ∈ w_trace w -> kind_of q = k.
Proof.
  intros R. revert ths w R. refine (reach_ind' (fun ths w => ETransport t m (FromFlush k n) q ∈ w_trace w -> kind_of q = k) _ _ _).
  - intros a _ H. by apply elem_of_nil in H.
  - done.
  - intros ths w t' i rest new w' R IH _ Ht E. assert (typed t' i) as Hty. { eapply (reach_typed R); [exact Ht|constructor]. }
    intros Hin. destruct (new_transport_any E Hin) as [H|(f & ->)]; [by apply IH|]. cbn in Hty. by destruct Hty.
Qed.
Lemma sent_total ths w k : reach (ths, w) -> (length (sent_for_calls k (w_trace w)) + length (sent_by_flush k (w_trace w)) = length (sent_of k (w_trace w)))%nat.
Proof.
  intros R. assert (forall t m k n q, ETransport t m (FromFlush k n) q ∈ w_trace w -> kind_of q = k) as H by (intros; by eapply flush_kind).
  clear R. revert H. generalize (w_trace w) as tr. induction tr as [|ev tr IH]; intros H; [done|].
  assert (forall t m k n q, ETransport t m (FromFlush k n) q ∈ tr -> kind_of q = k) as H'. { intros. eapply H. constructor. eassumption. }
  specialize (IH H'). unfold sent_for_calls, sent_by_flush, sent_of in *. cbn [mbind list_bind]. rewrite !app_length.
  enough (forall a b c a' b' c' : nat, (a' + b' = c')%nat -> (a + b = c)%nat -> (a' + a + (b' + b) = c' + c)%nat) as G.
  { apply G; [|exact IH]. destruct ev as [| | | | |t m [c|k' n] q| | | | | | |]; try done.
    assert (kind_of q = k') as Eq. { eapply H. constructor. } rewrite Eq. destruct (decide (k' = k)); done. }
  lia.
Qed.

(** C57 *)
Lemma asked_once ths w k n q r : reach (ths, w) -> calls k (w_aggs w) !! n = Some (agg_call_of q, r) ->
  exists t c a, EStart t c a ∈ w_trace w /\ EAgg t k n (Some c) ∈ w_trace w /\ ap_request a = q /\ has_transport cf a = true.
Proof.
  intros R E. eapply reach_asked_for in E as (t & c & a & H1 & H2 & H3 & H4); [|exact R|by destruct q].
  exists t, c, a. split; [done|]. split; [done|]. split; [|done]. destruct q, (ap_request a); cbn in H4; congruence.
Qed.

(** C58 *)
Lemma check_justified ths w n q rp r : reach (ths, w) -> calls KCheck (w_aggs w) !! n = Some (OnCheck (CCacheResponse q rp), r) ->
  exists t m c t' rp' b, ETransport t m (FromCall c) (RqCheck q) ∈ w_trace w /\ ECompleted t' m SOk rp' b ∈ w_trace w /\ rp = check_reply rp'.
Proof. intros R E. destruct (reach_staged R) as [S _]. eapply (st_calls S) in E. exact E. Qed.
Lemma quota_justified ths w n q rp r : reach (ths, w) -> calls KQuota (w_aggs w) !! n = Some (OnQuota (QResponse q rp), r) ->
  exists t m o t' s rp' b, ETransport t m o (RqQuota q) ∈ w_trace w /\ ECompleted t' m s rp' b ∈ w_trace w /\
    ((s = SOk /\ rp = quota_reply rp') \/ (s <> SOk /\ rp = empty_quota_response)).
Proof. intros R E. destruct (reach_staged R) as [S _]. eapply (st_calls S) in E. exact E. Qed.

(** C61 *)
Lemma no_callback_after ths w l1 t k l2 : reach (ths, w) -> w_trace w = l1 ++ EDisconnect t k :: l2 ->
  (forall t' n q, ECallback t' k n q ∉ l2) /\ (forall t' m n q, ETransport t' m (FromFlush k n) q ∉ l2).
Proof.
  intros R E. pose proof (reach_in_order R) as O.
  assert (forall ev, ev ∈ l2 -> in_order (l1 ++ EDisconnect t k :: l2) ev \/ exists m1 m2, l2 = m1 ++ ev :: m2 /\ in_order (l1 ++ EDisconnect t k :: m1) ev) as G.
  { intros ev (m1 & m2 & ->)%elem_of_list_split. right. exists m1, m2. split; [done|]. apply (O (l1 ++ EDisconnect t k :: m1) ev m2). rewrite E. by rewrite <- app_assoc. }
  assert (forall m : list event, EDisconnect t k ∈ l1 ++ EDisconnect t k :: m) as D by (intros m; apply elem_of_app; right; constructor).
  split.
  - intros t' n q [H|(m1 & m2 & _ & H)]%G; by eapply H.
  - intros t' m n q [H|(m1 & m2 & _ & H)]%G; by eapply H.
Qed.
Lemma freed_after ths w l1 t l2 k : reach (ths, w) -> w_trace w = l1 ++ EFreed t :: l2 -> exists t', EDisconnect t' k ∈ l1.
Proof. intros R E. apply (reach_in_order R _ _ _ E). Qed.

(** C70 *)
Lemma numbers_app k l1 l2 : agg_numbers k (l1 ++ l2) = agg_numbers k l1 ++ agg_numbers k l2.
Proof. unfold agg_numbers. apply bind_app. Qed.
Lemma number_elem k t n u tr : EAgg t k n u ∈ tr -> n ∈ agg_numbers k tr.
Proof. intros H. unfold agg_numbers. apply elem_of_list_bind. eexists. split; cycle 1; [exact H|]. cbv beta iota. rewrite decide_True by done. constructor. Qed.
Lemma numbers_sorted (l1 l2 : list nat) N n m : l1 ++ l2 = seq 0 N -> n ∈ l1 -> m ∈ l2 -> (n < m)%nat.
Proof.
  intros E (i & Hi)%elem_of_list_lookup (j & Hj)%elem_of_list_lookup. pose proof (lookup_lt_Some _ _ _ Hi) as Li.
  assert ((l1 ++ l2) !! i = Some n) as H1 by by apply lookup_app_l_Some.
  assert ((l1 ++ l2) !! (length l1 + j)%nat = Some m) as H2. { rewrite lookup_app_r by lia. by replace (length l1 + j - length l1)%nat with j by lia. }
  rewrite E in H1, H2. apply lookup_seq in H1 as [-> _]. apply lookup_seq in H2 as [-> _]. lia.
Qed.
Lemma real_time ths w l1 t k n l2 t' m u : reach (ths, w) -> w_trace w = l1 ++ EAggReturn t k n :: l2 -> EAgg t' k m u ∈ l2 -> (n < m)%nat.
Proof.
  intros R E H. assert (exists u0, EAgg t k n u0 ∈ l1) as (u0 & H0). { eapply after_body; [exact R|exact E|auto]. } pose proof (agg_numbered k R) as N. rewrite E in N.
  rewrite numbers_app in N. eapply numbers_sorted; [exact N|by eapply number_elem|]. eapply number_elem. constructor. exact H.
Qed.
End claims.
