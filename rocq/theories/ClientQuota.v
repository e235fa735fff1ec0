(** Where the quota of the user goes: from the calls of the client to the requests that the server gets.  Proofs for PropsClient5.v. *)
From Verif Require Import Base Proto Signature OpAgg OpAggSpec Lru Timeout Agg CheckAgg CheckAggSpec QuotaAgg QuotaAggSpec LruSpec QuotaAcct ReportAgg ReportAggSpec Client ClientSpec ClientInv ClientCalls ClientStage ClientLocks ClientFlush ClientEnd ClientDrain ClientFacts ClientClaims ClientTick ClientWhole.
From stdpp Require Import gmap list.
Local Open Scope Z_scope.
Set Implicit Arguments.

(** ** Vocabulary *)
(** Call [c] was given OK and an answer without errors. *)
Definition said_yes (tr : list event) (c : nat) : bool :=
  existsb (fun ev => match ev with EDone _ c' SOk (RpQuota r) => Nat.eqb c c' && match qs_errors r with [] => true | _ => false end | _ => false end) tr.
(** Nothing was sent for call [c]. *)
Definition kept_back (tr : list event) (c : nat) : bool := match forwards c tr with [] => true | _ => false end.
(** The operations of the Quota calls that were granted without asking the server first. *)
Definition cache_grants (tr : list event) : list quota_operation :=
  tr ≫= fun ev =>
    match ev with
    | EStart _ c a => match ap_request a with RqQuota q => if said_yes tr c && kept_back tr c then [qop_get (qr_operation q)] else [] | _ => [] end
    | _ => []
    end.
(** If the client was destroyed, the calls of the aggregator were over when the destructor removed its callback. *)
Definition undisturbed (k : kind) (tr : list event) : Prop :=
  forall t l1 l2, tr = l1 ++ EDisconnect t k :: l2 -> forall t' n u, EAgg t' k n u ∈ tr -> EAggReturn t' k n ∈ l1.
(** The operations of the quota requests that the flushes sent. *)
Definition quota_operations (qs : list request) : list quota_operation := qs ≫= fun q => match q with RqQuota q => [qop_get (qr_operation q)] | _ => [] end.

Section quota.
Variable debug : bool.
Variable ord : hash_order.
Variable md5 : string -> string.
Variable clk : kind -> nat -> Z.
Variable cf : client_config.
Notation reach := (reach debug ord md5 clk cf).
Implicit Types (w : world) (t : nat) (i : instr) (ths : list (list instr)) (tr : list event).

Lemma done_unique ths w t c a t1 s1 r1 t2 s2 r2 : reach (ths, w) -> w_crash w = None -> EStart t c a ∈ w_trace w ->
  EDone t1 c s1 r1 ∈ w_trace w -> EDone t2 c s2 r2 ∈ w_trace w -> s1 = s2 /\ r1 = r2.
Proof.
  intros R Hc Hs H1 H2. pose proof (reach_progress R Hc Hs) as P.
  apply (story_elem c) in H1; [|apply Nat.eqb_refl]. apply (story_elem c) in H2; [|apply Nat.eqb_refl].
  revert H1 H2. destruct P as [t3|t3 n r _ _|t3 n r i _ _ _|t3 s r l S]; [| | |destruct S as [t4 _|t4 n r _ _ _|t4 t5 n r i s rp b _ _ _ _]]; cbn [app]; rewrite !elem_of_cons, !elem_of_nil; intros H1 H2;
    destruct_or? H1; destruct_or? H2; try done; inversion H1; inversion H2; subst; done.
Qed.
Lemma no_transport_status ths w t c a t1 s1 r1 : reach (ths, w) -> w_crash w = None -> EStart t c a ∈ w_trace w -> has_transport cf a = false ->
  EDone t1 c s1 r1 ∈ w_trace w -> s1 = SInvalidArgument.
Proof.
  intros R Hc Hs Ha H1. pose proof (reach_progress R Hc Hs) as P.
  apply (story_elem c) in H1; [|apply Nat.eqb_refl].
  revert H1. destruct P as [t3|t3 n r ? _|t3 n r i ? _ _|t3 s r l S]; [| | |destruct S as [t4 _|t4 n r ? _ _|t4 t5 n r i s rp b ? _ _ _]]; cbn [app]; rewrite !elem_of_cons, !elem_of_nil; intros H1;
    destruct_or? H1; try done; inversion H1; subst; congruence.
Qed.
(** *** Nothing is dropped if the calls of the aggregator were over when the callback was removed *)
Lemma returned_sent k0 ths w t l1 l2 : reach (ths, w) -> w_crash w = None -> w_trace w = l1 ++ EDisconnect t k0 :: l2 ->
  (forall t' n u, EAgg t' k0 n u ∈ w_trace w -> EAggReturn t' k0 n ∈ l1) ->
  dropped k0 (w_trace w) = [] /\ sent_by_flush k0 (w_trace w) ≡ₚ removed_items k0 (w_aggs w).
Proof.
  intros R Hc Hl Hret.
  assert (w_connected w k0 = false) as Hk. { apply (disconnect_event R). exists t. rewrite Hl. set_solver. }
  assert (forall n call r, calls k0 (w_aggs w) !! n = Some (call, r) ->
    (exists t0 gs, EAggReturn t0 k0 n ∈ l1 /\ handled k0 n (w_trace w) = (pair t0 <$> gs) ++ [(t0, Returned)] /\ item_of <$> gs = Some <$> rs_flushed r) \/ rs_flushed r = []) as Hn.
  { intros n call r En. pose proof (reach_delivery R Hc k0 n) as D. unfold delivery in D. rewrite En in D.
    destruct D as (t0 & st & u & H1 & H2 & H3 & H4 & H5). left. apply Hret in H2. assert (EAggReturn t0 k0 n ∈ w_trace w) as Hr by (rewrite Hl; set_solver).
    destruct (returned_delivered R Hc Hr) as (call' & r' & u' & E1 & _ & gs & E2 & E3). rewrite En in E1. injection E1 as <- <-. by exists t0, gs. }
  assert (all (waiting k0) ths = []) as Hw.
  { destruct (all (waiting k0) ths) as [|q l] eqn:El; [done|]. exfalso. assert (q ∈ all (waiting k0) ths) as Hq by (rewrite El; apply elem_of_list_here).
    apply all_elem in Hq as (t' & st & i & H1 & H2 & H3). assert (exists n, Some q ∈ todo k0 n i) as (n & H4).
    { destruct i; cbn in H3; try (by apply elem_of_nil in H3); destruct (decide (k = k0)) as [->|]; try (by apply elem_of_nil in H3);
        apply elem_of_list_singleton in H3 as ->; exists n; cbn; rewrite bool_decide_true by done; set_solver. }
    assert (Some q ∈ st ≫= todo k0 n) as H5. { apply elem_of_list_bind. by exists i. }
    pose proof (reach_delivery R Hc k0 n) as D. unfold delivery in D. destruct (calls k0 (w_aggs w) !! n) as [[call r]|] eqn:En.
    - destruct D as (t0 & st0 & u & D1 & D2 & D3 & D4 & D5). destruct (decide (t' = t0)) as [->|Ne]; [|by rewrite (D4 _ _ H1 Ne) in H5; apply elem_of_nil in H5].
      assert (st0 = st) as -> by congruence. destruct (Hn _ _ _ En) as [(t1 & gs & _ & E2 & E3)|E].
      + apply (f_equal length) in D5. rewrite E2, !app_length, fmap_length, !app_length, !fmap_length in D5. apply (f_equal length) in E3. rewrite !fmap_length in E3.
        destruct (st ≫= todo k0 n); [by apply elem_of_nil in H5|]. cbn in D5. lia.
      + rewrite E in D5. cbn in D5. assert (Some q ∈ [None]) as Hx; [|by apply elem_of_list_singleton in Hx]. rewrite <- D5. apply elem_of_app. by right.
    - destruct D as [D _]. rewrite (D _ _ H1) in H5. by apply elem_of_nil in H5. }
  assert (all (sending k0) ths = []) as Hs.
  { destruct (all (sending k0) ths) as [|q l] eqn:El; [done|]. exfalso. assert (q ∈ all (sending k0) ths) as Hq by (rewrite El; apply elem_of_list_here).
    apply all_elem in Hq as (t' & st & i & H1 & H2 & H3). pose proof (en_conn (reach_ending R) _ H1 H2) as Hx.
    destruct i; cbn in H3; try (by apply elem_of_nil in H3). destruct o as [|k n]; [by apply elem_of_nil in H3|]. cbn in Hx. destruct (decide (k = k0)) as [->|]; [|by apply elem_of_nil in H3]. congruence. }
  assert (dropped k0 (w_trace w) = []) as Hd.
  { destruct (dropped k0 (w_trace w)) as [|q l] eqn:El; [done|]. exfalso. assert (q ∈ dropped k0 (w_trace w)) as Hq by (rewrite El; apply elem_of_list_here).
    apply elem_of_list_bind in Hq as (ev & H1 & H2). destruct ev; try (by apply elem_of_nil in H1). destruct (decide (k = k0)) as [->|]; [|by apply elem_of_nil in H1].
    apply elem_of_list_singleton in H1 as <-. pose proof (reach_in_order R) as O.
    assert (EDropped t0 k0 n q ∈ l2) as H3.
    { rewrite Hl, elem_of_app, elem_of_cons in H2. destruct H2 as [H2|[H2|H2]]; [|done|done]. exfalso. apply elem_of_list_split in H2 as (m1 & m2 & ->).
      destruct (O (m1) (EDropped t0 k0 n q) (m2 ++ EDisconnect t k0 :: l2)) as (t1 & H3); [by rewrite Hl, <- app_assoc|].
      destruct (O _ _ _ Hl) as [_ H4]. apply (H4 t1). apply elem_of_app. by left. }
    assert ((t0, Dropped q) ∈ handled k0 n (EDisconnect t k0 :: l2)) as H4.
    { apply elem_of_list_bind. exists (EDropped t0 k0 n q). cbn. rewrite bool_decide_true by done. split; [set_solver|]. by apply elem_of_list_further. }
    assert (handled k0 n (w_trace w) = handled k0 n l1 ++ handled k0 n (EDisconnect t k0 :: l2)) as H5. { rewrite Hl. unfold handled. by rewrite bind_app. }
    pose proof (reach_delivery R Hc k0 n) as D. unfold delivery in D. destruct (calls k0 (w_aggs w) !! n) as [[call r]|] eqn:En.
    - destruct D as (t1 & st0 & u & D1 & D2 & D3 & D4 & D5). destruct (Hn _ _ _ En) as [(t2 & gs & E1 & E2 & E3)|E].
      + assert ((t2, Returned) ∈ handled k0 n l1) as H6. { apply elem_of_list_bind. exists (EAggReturn t2 k0 n). cbn. rewrite bool_decide_true by done. split; [set_solver|done]. }
        rewrite E2 in H5. destruct (handled k0 n (EDisconnect t k0 :: l2)) as [|x B _] using rev_ind; [by apply elem_of_nil in H4|].
        rewrite app_assoc in H5. apply app_inj_tail in H5 as [H5 _]. assert ((t2, Returned) ∈ pair t2 <$> gs) as H7. { rewrite H5. apply elem_of_app. by left. }
        apply elem_of_list_fmap in H7 as (f & [= <-] & H7). assert (None ∈ item_of <$> gs) as H8. { apply elem_of_list_fmap. by exists Returned. }
        rewrite E3 in H8. by apply elem_of_list_fmap in H8 as (? & ? & ?).
      + rewrite E in D5. cbn in D5. assert (Some q ∈ [None]) as Hx; [|by apply elem_of_list_singleton in Hx]. rewrite <- D5. apply elem_of_app. left.
        apply elem_of_list_fmap. exists (t0, Dropped q). split; [done|]. rewrite H5. apply elem_of_app. by right.
    - destruct D as [_ D]. rewrite D in H5. symmetry in H5. apply app_nil in H5 as [_ H5]. rewrite H5 in H4. by apply elem_of_nil in H4. }
  split; [done|].
  pose proof (sends_conserved k0 R Hc) as P1. pose proof (items_conserved k0 R Hc) as P2. rewrite Hs in P1. rewrite Hw, Hd, app_nil_r in P2. cbn [app] in P1, P2. by rewrite P1, P2.
Qed.
Lemma said_yes_spec tr c : said_yes tr c = true <-> exists t r, EDone t c SOk (RpQuota r) ∈ tr /\ qs_errors r = [].
Proof.
  unfold said_yes. rewrite existsb_exists. split.
  - intros (ev & H1 & H2). destruct ev as [| | | | | | |t c' s r| | | | |]; try done. destruct s; try done. destruct r as [| |r|]; try done. apply andb_true_iff in H2 as [->%Nat.eqb_eq H2].
    exists t, r. split; [by apply elem_of_list_In|]. by destruct (qs_errors r).
  - intros (t & r & H1 & H2). exists (EDone t c SOk (RpQuota r)). split; [by apply elem_of_list_In|]. cbn. by rewrite Nat.eqb_refl, H2.
Qed.

(** The operation that call [n] of the aggregator granted. *)
Definition grant_at (h : list quota_event) (n : nat) : list quota_operation := from_option granted_op [] (h !! n).
Lemma bind_seq (h1 h : list quota_event) : seq (length h1) (length h) ≫= grant_at (h1 ++ h) = h ≫= granted_op.
Proof.
  revert h1. induction h as [|ev h IH]; intros h1; [done|]. cbn [length seq]. rewrite !bind_cons. f_equal.
  - unfold grant_at. by rewrite list_lookup_middle.
  - specialize (IH (h1 ++ [ev])). rewrite app_length, Nat.add_1_r, <- app_assoc in IH. exact IH.
Qed.

(** What is granted to call [c], which is [a]. *)
Definition grant_of tr (c : nat) (a : api) : list quota_operation :=
  match ap_request a with RqQuota q => if said_yes tr c && kept_back tr c then [qop_get (qr_operation q)] else [] | _ => [] end.
Definition api_of tr (c : nat) : option api := head (tr ≫= fun ev => match ev with EStart _ c' a => if decide (c' = c) then [a] else [] | _ => [] end).
Lemma api_of_start ths w t c a : reach (ths, w) -> EStart t c a ∈ w_trace w -> api_of (w_trace w) c = Some a.
Proof.
  intros R H. unfold api_of.
  assert (forall a', a' ∈ w_trace w ≫= (fun ev => match ev with EStart _ c' a => if decide (c' = c) then [a] else [] | _ => [] end) -> a' = a) as Hall.
  { intros a' (ev & H1 & H2)%elem_of_list_bind. destruct ev; try by apply elem_of_nil in H1. destruct (decide _) as [->|]; [|by apply elem_of_nil in H1].
    apply elem_of_list_singleton in H1 as ->. by destruct (start_unique R H H2). }
  assert (a ∈ w_trace w ≫= (fun ev => match ev with EStart _ c' a => if decide (c' = c) then [a] else [] | _ => [] end)) as Hin.
  { apply elem_of_list_bind. exists (EStart t c a). split; [|done]. destruct (decide (c = c)); [|done]. constructor. }
  destruct (w_trace w ≫= _) as [|a' l]; [by apply elem_of_nil in Hin|]. cbn. f_equal. apply Hall. constructor.
Qed.
(** The Quota calls that have a transport. *)
Definition quota_calls tr : list nat :=
  tr ≫= fun ev => match ev with EStart _ c a => if has_transport cf a && bool_decide (kind_of (ap_request a) = KQuota) then [c] else [] | _ => [] end.
Lemma quota_calls_spec tr c : c ∈ quota_calls tr <-> exists t a, EStart t c a ∈ tr /\ has_transport cf a = true /\ kind_of (ap_request a) = KQuota.
Proof.
  unfold quota_calls. rewrite elem_of_list_bind. split.
  - intros (ev & H1 & H2). destruct ev; try by apply elem_of_nil in H1. destruct (has_transport cf a) eqn:Ha; [|by apply elem_of_nil in H1]. cbn in H1.
    case_bool_decide as Hk; [|by apply elem_of_nil in H1]. apply elem_of_list_singleton in H1 as ->. eauto.
  - intros (t & a & H1 & H2 & H3). exists (EStart t c a). split; [|done]. rewrite H2, H3. cbn. constructor.
Qed.
Lemma quota_calls_NoDup ths w : reach (ths, w) -> NoDup (quota_calls (w_trace w)).
Proof.
  intros R. pose proof (started_NoDup R) as N. unfold quota_calls, started in *. revert N. generalize (w_trace w). intros tr.
  induction tr as [|ev tr IH]; [done|]. rewrite !bind_cons. intros (N1 & N2 & N3)%NoDup_app. specialize (IH N3). destruct ev; try done. destruct (_ && _); [|done].
  apply NoDup_cons. split; [|done]. intros H. apply (N2 c); [constructor|]. apply elem_of_list_bind in H as (ev & H1 & H2). apply elem_of_list_bind. exists ev. split; [|done].
  destruct ev; try by apply elem_of_nil in H1. by destruct (_ && _); [|apply elem_of_nil in H1].
Qed.
(** The calls of the aggregator for them. *)
Definition answering tr : list (nat * nat) :=
  tr ≫= fun ev => match ev with EAgg _ KQuota n (Some c) => if decide (c ∈ quota_calls tr) then [(n, c)] else [] | _ => [] end.

Section state.
Variables (ths : list (list instr)) (w : world).
Hypothesis R : reach (ths, w).
Hypothesis Hc : w_crash w = None.
Hypothesis Hn : nothing_running ths.
Let tr := w_trace w.
Let h := ag_hq (w_aggs w).

Lemma agg_event_eq t1 n u1 t2 u2 : EAgg t1 KQuota n u1 ∈ tr -> EAgg t2 KQuota n u2 ∈ tr -> u1 = u2.
Proof.
  intros H1 H2. assert (NoDup (agg_numbers KQuota tr)) as N. { unfold tr. rewrite (agg_numbered KQuota R). apply NoDup_seq. }
  assert (EAgg t1 KQuota n u1 = EAgg t2 KQuota n u2) as [= _ E]; [|done].
  unfold agg_numbers in N. eapply nodup_bind_elem with (b := n); [exact N|done|done| |]; cbn; constructor.
Qed.
Lemma grant_asked n : grant_at h n <> [] -> exists t c a, EAgg t KQuota n (Some c) ∈ tr /\ EStart t c a ∈ tr /\ has_transport cf a = true /\ kind_of (ap_request a) = KQuota.
Proof.
  unfold grant_at. destruct (h !! n) as [ev|] eqn:E; [|done]. cbn. intros G. unfold granted_op in G. destruct (qv_call ev) as [q| | |] eqn:Eq; try done.
  assert (calls KQuota (w_aggs w) !! n = Some (OnQuota (QQuota q), quota_res (qv_result ev))) as Hx. { cbn [calls]. fold h. rewrite list_lookup_fmap, E. cbn. by rewrite Eq. }
  destruct (reach_asked_for _ _ R Hx eq_refl) as (t & c & a & H1 & H2 & H3 & H4). exists t, c, a. split_and!; try done. by destruct (ap_request a).
Qed.
Lemma grant_same t n c : EAgg t KQuota n (Some c) ∈ tr -> c ∈ quota_calls tr -> grant_at h n = from_option (grant_of tr c) [] (api_of tr c).
Proof.
  intros HA (t0 & a & Hs & Ha & Hk)%quota_calls_spec. unfold tr. rewrite (api_of_start R Hs). fold tr. cbn [from_option].
  destruct (all_returned R Hc Hn Hs) as (t' & Hr). destruct (call_forwarded R Hc Hs Hr Ha) as (n' & r & E1 & E2 & E3).
  rewrite Hk in *. destruct (agg_unique R Hc Hs HA E1) as [_ <-]. unfold grant_of. destruct (ap_request a) as [|q|] eqn:Eq; try done.
  cbn [calls agg_call_of] in E2. fold h in E2. rewrite list_lookup_fmap in E2. unfold grant_at. destruct (h !! n) as [ev|] eqn:Eh; [|done]. cbn in E2 |- *. injection E2 as Ecall <-.
  unfold granted_op. rewrite Ecall. cbn [quota_res rs_status rs_reply] in E3. destruct (status_eqb (qres_status (qv_result ev)) SNotFound) eqn:Es.
  - apply status_eqb_eq in Es. rewrite Es. destruct E3 as (m & E3). unfold kept_back, tr. rewrite E3. by rewrite andb_false_r.
  - destruct E3 as [E3 (t'' & E4)]. unfold kept_back. unfold tr at 2. rewrite E3, andb_true_r.
    destruct (said_yes tr c) eqn:Ey.
    + apply said_yes_spec in Ey as (t1 & r1 & Y1 & Y2). destruct (done_unique R Hc Hs Y1 E4) as [<- Yr]. destruct (qres_response (qv_result ev)) as [x|]; [|done]. injection Yr as <-. by rewrite Y2.
    + destruct (qres_status (qv_result ev)) eqn:E5; try done. destruct (qres_response (qv_result ev)) as [x|]; [|done]. destruct (qs_errors x) eqn:E6; [|done].
      exfalso. assert (said_yes tr c = true) by (apply said_yes_spec; eauto). congruence.
Qed.
Lemma granted_answering : granted h = (answering tr).*2 ≫= fun c => from_option (grant_of tr c) [] (api_of tr c).
Proof.
  unfold granted. rewrite <- (bind_seq [] h). cbn [app length].
  assert (length h = length (calls KQuota (w_aggs w))) as ->. { cbn [calls]. by rewrite fmap_length. }
  rewrite <- (agg_numbered KQuota R). fold tr. unfold agg_numbers, answering. rewrite bind_bind.
  assert (forall (l : list (nat * nat)) (f : nat -> list quota_operation), l.*2 ≫= f = l ≫= fun p => f p.2) as Hf. { intros l f. induction l as [|p l IH]; [done|]. cbn [fmap list_fmap]. by rewrite !bind_cons, <- IH. }
  rewrite Hf, bind_bind. apply bind_ext_in. intros ev Hev. destruct ev as [|t k n u| | | | | | | | | | |]; try done. destruct (decide (k = KQuota)) as [->|Hk]; [|by destruct k].
  rewrite bind_cons. cbn [mbind list_bind]. rewrite app_nil_r.
  assert (forall t' c', EAgg t' KQuota n (Some c') ∈ tr -> u = Some c') as Hu. { intros t' c' H. exact (agg_event_eq Hev H). }
  destruct u as [c|].
  - destruct (decide (c ∈ quota_calls tr)) as [Hq|Hq].
    + cbn. rewrite app_nil_r. by apply (grant_same Hev).
    + destruct (grant_at h n) eqn:Eg; [done|]. exfalso. destruct (@grant_asked n) as (t1 & c1 & a & H1 & H2 & H3 & H4); [by rewrite Eg|].
      specialize (Hu _ _ H1). injection Hu as <-. apply Hq, quota_calls_spec. eauto.
  - destruct (grant_at h n) eqn:Eg; [done|]. exfalso. destruct (@grant_asked n) as (t1 & c1 & a & H1 & _); [by rewrite Eg|]. by specialize (Hu _ _ H1).
Qed.
Lemma answering_spec n c : (n, c) ∈ answering tr <-> (exists t, EAgg t KQuota n (Some c) ∈ tr) /\ c ∈ quota_calls tr.
Proof.
  unfold answering. rewrite elem_of_list_bind. split.
  - intros (ev & H1 & H2). destruct ev as [|t k n' u| | | | | | | | | | |]; try by apply elem_of_nil in H1. destruct k; try by apply elem_of_nil in H1. destruct u as [c'|]; [|by apply elem_of_nil in H1].
    destruct (decide _) as [Hq|]; [|by apply elem_of_nil in H1]. apply elem_of_list_singleton in H1. injection H1 as -> ->. eauto.
  - intros [[t H1] H2]. exists (EAgg t KQuota n (Some c)). split; [|done]. destruct (decide _); [|done]. constructor.
Qed.
Lemma answering_NoDup1 : NoDup (answering tr).*1.
Proof.
  assert (NoDup (agg_numbers KQuota tr)) as N. { unfold tr. rewrite (agg_numbered KQuota R). apply NoDup_seq. }
  unfold answering. revert N. generalize (quota_calls tr). intros S. unfold agg_numbers. generalize tr. intros l.
  induction l as [|ev l IH]; [constructor|]. rewrite !bind_cons. intros (N1 & N2 & N3)%NoDup_app. specialize (IH N3).
  destruct ev as [|t k n' u| | | | | | | | | | |]; try done. destruct k; try done. destruct u as [c|]; [|done]. destruct (decide (c ∈ S)); [|done]. cbn [app fmap list_fmap fst].
  apply NoDup_cons. split; [|done]. intros H. apply (N2 n'); [destruct (decide _); [constructor|done]|]. apply elem_of_list_fmap in H as ([n c'] & -> & H). cbn.
  apply elem_of_list_bind in H as (ev & H1 & H2). apply elem_of_list_bind. exists ev. split; [|done].
  destruct ev as [|t1 k n' u| | | | | | | | | | |]; try by apply elem_of_nil in H1. destruct k; try by apply elem_of_nil in H1. destruct u as [c2|]; [|by apply elem_of_nil in H1].
  destruct (decide (c2 ∈ S)); [|by apply elem_of_nil in H1]. apply elem_of_list_singleton in H1. injection H1 as -> ->. destruct (decide _); [constructor|done].
Qed.
Lemma answering_calls : (answering tr).*2 ≡ₚ quota_calls tr.
Proof.
  apply NoDup_Permutation.
  - apply NoDup_fmap_2_strong; [|eapply NoDup_fmap_1, answering_NoDup1]. intros [n1 c1] [n2 c2] [[t1 H1] Hq]%answering_spec [[t2 H2] _]%answering_spec E. cbn in E. subst c2. f_equal.
    apply quota_calls_spec in Hq as (t0 & a & Hs & _). by destruct (agg_unique R Hc Hs H1 H2).
  - apply (quota_calls_NoDup R).
  - intros c. rewrite elem_of_list_fmap. split.
    + intros ([n c'] & -> & [_ H]%answering_spec). done.
    + intros Hq. pose proof Hq as (t0 & a & Hs & Ha & Hk)%quota_calls_spec.
      destruct (all_returned R Hc Hn Hs) as (t' & Hr). destruct (call_forwarded R Hc Hs Hr Ha) as (n & r & E1 & _). rewrite Hk in E1. exists (n, c). split; [done|]. apply answering_spec. eauto.
Qed.
Lemma cache_grants_calls : cache_grants tr = quota_calls tr ≫= fun c => from_option (grant_of tr c) [] (api_of tr c).
Proof.
  unfold cache_grants, quota_calls. rewrite bind_bind. apply bind_ext_in. intros ev Hev. destruct ev as [t c a| | | | | | | | | | | |]; try done.
  destruct (has_transport cf a) eqn:Ha; cbn [andb].
  - case_bool_decide as Hk; [|by destruct (ap_request a)]. cbn. rewrite app_nil_r. assert (api_of tr c = Some a) as -> by exact (api_of_start R Hev). done.
  - destruct (ap_request a) as [|q|] eqn:Eq; try done. destruct (said_yes tr c) eqn:Ey; [|done]. exfalso. apply said_yes_spec in Ey as (t1 & r1 & Y1 & _).
    by pose proof (no_transport_status R Hc Hev Ha Y1).
Qed.
Lemma grants_permutation : cache_grants tr ≡ₚ granted h.
Proof. rewrite granted_answering, cache_grants_calls. symmetry. apply bind_Permutation, answering_calls. Qed.

(** *** What is sent *)
Lemma quota_items a : removed_items KQuota a = RqQuota <$> qflushed (ag_hq a).
Proof. unfold removed_items, qflushed. cbn [calls]. induction (ag_hq a) as [|ev l IH]; [done|]. rewrite fmap_cons, !bind_cons, fmap_app, IH. done. Qed.
Lemma sent_or_dropped : sent_by_flush KQuota tr ++ dropped KQuota tr ≡ₚ RqQuota <$> qflushed h.
Proof.
  pose proof (sends_conserved KQuota R Hc) as P1. pose proof (items_conserved KQuota R Hc) as P2. rewrite idle_all in P1, P2 by done. cbn [app] in P1, P2. unfold tr. by rewrite P1, P2, quota_items.
Qed.
Lemma none_dropped k : undisturbed k tr -> dropped k tr = [] /\ sent_by_flush k tr ≡ₚ removed_items k (w_aggs w).
Proof.
  intros Hu. assert (dropped k tr = []) as Hd.
  { destruct (dropped k tr) as [|q l] eqn:E; [done|]. exfalso. assert (q ∈ dropped k tr) as H by (rewrite E; constructor).
    apply elem_of_list_bind in H as (ev & H1 & H2). destruct ev as [| | |t k' n q'| | | | | | | | |]; try by apply elem_of_nil in H1. destruct (decide (k' = k)) as [->|]; [|by apply elem_of_nil in H1].
    destruct (@not_dropped debug ord md5 clk cf ths w k n t q' R) as (t' & Hx). { apply elem_of_list_bind. eexists. split; [|exact H2]. cbn. rewrite bool_decide_true by done. constructor. }
    apply elem_of_list_split in Hx as (l1 & l2 & Hl). destruct (@returned_sent k ths w t' l1 l2 R Hc Hl (Hu _ _ _ Hl)) as [Hd _]. unfold tr in E. rewrite Hd in E. done. }
  split; [done|]. pose proof (sends_conserved k R Hc) as P1. pose proof (items_conserved k R Hc) as P2. rewrite idle_all in P1, P2 by done. cbn [app] in P1, P2. unfold tr in *. rewrite Hd, app_nil_r in P2. by rewrite P1, P2.
Qed.
Lemma all_sent : undisturbed KQuota tr -> dropped KQuota tr = [] /\ sent_by_flush KQuota tr ≡ₚ RqQuota <$> qflushed h.
Proof. intros Hu. destruct (none_dropped Hu) as [H1 H2]. split; [done|]. by rewrite H2, quota_items. Qed.
Lemma quota_ops_flushed (qs : list quota_request) : quota_operations (RqQuota <$> qs) = qop_get ∘ qr_operation <$> qs.
Proof. unfold quota_operations. induction qs as [|q qs IH]; [done|]. cbn [fmap list_fmap]. rewrite bind_cons, IH. done. Qed.
Lemma tokens_app name l1 l2 : tokens name (l1 ++ l2) = tokens name l1 + tokens name l2.
Proof.
  unfold tokens. rewrite bind_app, fmap_app. generalize ((fun v => match mv_value v with VInt64 z => z | _ => 0 end) <$> (l1 ≫= amounts_of name)). intros zs.
  induction zs as [|z zs IH]; [done|]. cbn in IH |- *. unfold sum_Z in *. cbn. lia.
Qed.
Lemma tokens_perm name l1 l2 : l1 ≡ₚ l2 -> tokens name l1 = tokens name l2.
Proof. induction 1 as [|x l1 l2 _ IH|x y l|]; [done| | |congruence].
  - change (x :: l1) with ([x] ++ l1). change (x :: l2) with ([x] ++ l2). by rewrite !tokens_app, IH.
  - change (x :: y :: l) with ([x] ++ [y] ++ l). change (y :: x :: l) with ([y] ++ [x] ++ l). rewrite !tokens_app. lia.
Qed.
(** A quota request of the user, up to the mode. *)
Definition repeats_call tr (q : request) : Prop := exists t c a q0, EStart t c a ∈ tr /\ ap_request a = RqQuota q0 /\ (q = RqQuota q0 \/ q = RqQuota (in_normal_mode q0)).
Lemma asked_started q : (exists ev, ev ∈ h /\ qv_call ev = QQuota q) -> exists t c a, EStart t c a ∈ tr /\ ap_request a = RqQuota q.
Proof.
  intros (ev & (n & Hev)%elem_of_list_lookup & Ec).
  assert (calls KQuota (w_aggs w) !! n = Some (OnQuota (QQuota q), quota_res (qv_result ev))) as Hx. { cbn [calls]. fold h. rewrite list_lookup_fmap, Hev. cbn. by rewrite Ec. }
  destruct (reach_asked_for _ _ R Hx eq_refl) as (t & c & a & H1 & H2 & H3 & H4). exists t, c, a. split; [done|]. destruct (ap_request a); cbn in H4; congruence.
Qed.
Lemma quota_tokens : proper_clock (clk KQuota) ->
  (forall t c a q, EStart t c a ∈ tr -> ap_request a = RqQuota q -> simple_quota (qop_get (qr_operation q))) ->
  exists resent lost, (forall q, q ∈ resent -> repeats_call tr q /\ q ∈ sent_by_flush KQuota tr ++ dropped KQuota tr) /\ (forall o, o ∈ lost -> o ∈ cache_grants tr) /\
    (nothing_leaves h -> never_denied h -> lost = []) /\
    forall name, tokens name (cache_grants tr) + tokens name (quota_operations resent) =
      tokens name (quota_operations (sent_by_flush KQuota tr)) + tokens name (quota_operations (dropped KQuota tr)) + tokens name (accumulated ord (ag_quota (w_aggs w))) + tokens name lost.
Proof.
  intros Hclk Hs. destruct (reach_sequential R) as (_ & S2 & _).
  assert (Forall simple_quota (QuotaAggSpec.asked h)) as Hf.
  { apply Forall_forall. intros o (ev & Ho & Hev)%elem_of_list_bind. destruct (qv_call ev) as [q| | |] eqn:E; [|by apply elem_of_nil in Ho..]. apply elem_of_list_singleton in Ho as ->.
    destruct (@asked_started q) as (t & c & a & H1 & H2); [eauto|]. by eapply Hs. }
  destruct (balance_tokens Hclk S2 Hf) as (resent & lost & B1 & B2 & B3 & B4 & B5).
  exists (RqQuota <$> resent), lost. split; [|split; [|split; [done|]]].
  - intros q (q' & -> & Hq)%elem_of_list_fmap. split.
    + rewrite Forall_forall in B1. destruct (B1 _ Hq) as (ev & q0 & H1 & H2 & H3). destruct (@asked_started q0) as (t & c & a & H4 & H5); [eauto|]. exists t, c, a, q0. split_and!; try done. destruct H3 as [->| ->]; eauto.
    + rewrite sent_or_dropped. apply elem_of_list_fmap. exists q'. split; [done|]. by apply B2.
  - intros o Ho. rewrite grants_permutation. by apply B3.
  - intros name. rewrite quota_ops_flushed, (tokens_perm _ grants_permutation). fold h in B5. rewrite B5.
    assert (tokens name (quota_operations (sent_by_flush KQuota tr)) + tokens name (quota_operations (dropped KQuota tr)) = tokens name (qop_get ∘ qr_operation <$> qflushed h)) as ->; [|lia].
    rewrite <- tokens_app, <- quota_ops_flushed. apply tokens_perm. unfold quota_operations. rewrite <- bind_app. apply bind_Permutation, sent_or_dropped.
Qed.
End state.
End quota.
