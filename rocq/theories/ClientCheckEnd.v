(** Where the operations of the checks go that the cache answers: proofs for PropsClient6.v. *)
From Verif Require Import Base Proto Signature OpAgg OpAggSpec Lru Timeout Agg CheckAgg CheckAggSpec CheckAggClaims QuotaAgg QuotaAggSpec LruSpec ReportAgg ReportAggSpec ReportDrain Client ClientSpec ClientInv ClientCalls ClientStage ClientLocks ClientFlush ClientEnd ClientDrain ClientFacts ClientClaims ClientTick ClientWhole ClientAnswers ClientQuota.
From stdpp Require Import gmap list.
Local Open Scope Z_scope.
Set Implicit Arguments.

(** ** Vocabulary *)
(** Call [c] was told OK, with an answer without errors. *)
Definition passed (tr : list event) (c : nat) : bool :=
  existsb (fun ev => match ev with EDone _ c' SOk (RpCheck r) => Nat.eqb c c' && match cs_errors r with [] => true | _ => false end | _ => false end) tr.
(** The operations of the Check calls that passed although nothing was sent for them. *)
Definition cache_passes (tr : list event) : list operation :=
  tr ≫= fun ev =>
    match ev with
    | EStart _ c a => match ap_request a with RqCheck q => if passed tr c && kept_back tr c then [op_get (cr_operation q)] else [] | _ => [] end
    | _ => []
    end.
(** The operations of check requests. *)
Definition check_operations (qs : list request) : list operation := qs ≫= fun q => match q with RqCheck q => [op_get (cr_operation q)] | _ => [] end.

Section check.
Variable debug : bool.
Variable ord : hash_order.
Variable md5 : string -> string.
Variable clk : kind -> nat -> Z.
Variable cf : client_config.
Notation reach := (reach debug ord md5 clk cf).
Implicit Types (w : world) (t : nat) (i : instr) (ths : list (list instr)) (tr : list event).

Lemma passed_spec tr c : passed tr c = true <-> exists t r, EDone t c SOk (RpCheck r) ∈ tr /\ cs_errors r = [].
Proof.
  unfold passed. rewrite existsb_exists. split.
  - intros (ev & H1 & H2). destruct ev as [| | | | | | |t c' s r| | | | |]; try done. destruct s; try done. destruct r as [|r| |]; try done. apply andb_true_iff in H2 as [->%Nat.eqb_eq H2].
    exists t, r. split; [by apply elem_of_list_In|]. by destruct (cs_errors r).
  - intros (t & r & H1 & H2). exists (EDone t c SOk (RpCheck r)). split; [by apply elem_of_list_In|]. cbn. by rewrite Nat.eqb_refl, H2.
Qed.
(** The operation that call [n] of the aggregator answered. *)
Definition pass_at (h : list check_event) (n : nat) : list operation := from_option answered_op [] (h !! n).
Lemma bind_seq_check (h1 h : list check_event) : seq (length h1) (length h) ≫= pass_at (h1 ++ h) = h ≫= answered_op.
Proof.
  revert h1. induction h as [|ev h IH]; intros h1; [done|]. cbn [length seq]. rewrite !bind_cons. f_equal.
  - unfold pass_at. by rewrite list_lookup_middle.
  - specialize (IH (h1 ++ [ev])). rewrite app_length, Nat.add_1_r, <- app_assoc in IH. exact IH.
Qed.
Definition pass_of tr (c : nat) (a : api) : list operation :=
  match ap_request a with RqCheck q => if passed tr c && kept_back tr c then [op_get (cr_operation q)] else [] | _ => [] end.
(** The Check calls that have a transport. *)
Definition check_calls tr : list nat :=
  tr ≫= fun ev => match ev with EStart _ c a => if has_transport cf a && bool_decide (kind_of (ap_request a) = KCheck) then [c] else [] | _ => [] end.
Lemma check_calls_spec tr c : c ∈ check_calls tr <-> exists t a, EStart t c a ∈ tr /\ has_transport cf a = true /\ kind_of (ap_request a) = KCheck.
Proof.
  unfold check_calls. rewrite elem_of_list_bind. split.
  - intros (ev & H1 & H2). destruct ev; try by apply elem_of_nil in H1. destruct (has_transport cf a) eqn:Ha; [|by apply elem_of_nil in H1]. cbn in H1.
    case_bool_decide as Hk; [|by apply elem_of_nil in H1]. apply elem_of_list_singleton in H1 as ->. eauto.
  - intros (t & a & H1 & H2 & H3). exists (EStart t c a). split; [|done]. rewrite H2, H3. cbn. constructor.
Qed.
Lemma check_calls_NoDup ths w : reach (ths, w) -> NoDup (check_calls (w_trace w)).
Proof.
  intros R. pose proof (started_NoDup R) as N. unfold check_calls, started in *. revert N. generalize (w_trace w). intros tr.
  induction tr as [|ev tr IH]; [done|]. rewrite !bind_cons. intros (N1 & N2 & N3)%NoDup_app. specialize (IH N3). destruct ev; try done. destruct (_ && _); [|done].
  apply NoDup_cons. split; [|done]. intros H. apply (N2 c); [constructor|]. apply elem_of_list_bind in H as (ev & H1 & H2). apply elem_of_list_bind. exists ev. split; [|done].
  destruct ev; try by apply elem_of_nil in H1. by destruct (_ && _); [|apply elem_of_nil in H1].
Qed.
Definition asking tr : list (nat * nat) :=
  tr ≫= fun ev => match ev with EAgg _ KCheck n (Some c) => if decide (c ∈ check_calls tr) then [(n, c)] else [] | _ => [] end.

Section state.
Variables (ths : list (list instr)) (w : world).
Hypothesis R : reach (ths, w).
Hypothesis Hc : w_crash w = None.
Hypothesis Hn : nothing_running ths.
Let tr := w_trace w.
Let h := ag_hc (w_aggs w).
Notation told_at c := (from_option (pass_of tr c) [] (api_of tr c)).

Lemma check_event_eq t1 n u1 t2 u2 : EAgg t1 KCheck n u1 ∈ tr -> EAgg t2 KCheck n u2 ∈ tr -> u1 = u2.
Proof.
  intros H1 H2. assert (NoDup (agg_numbers KCheck tr)) as N. { unfold tr. rewrite (agg_numbered KCheck R). apply NoDup_seq. }
  assert (EAgg t1 KCheck n u1 = EAgg t2 KCheck n u2) as [= _ E]; [|done].
  unfold agg_numbers in N. eapply nodup_bind_elem with (b := n); [exact N|done|done| |]; cbn; constructor.
Qed.
Lemma pass_asked n : pass_at h n <> [] -> exists t c a, EAgg t KCheck n (Some c) ∈ tr /\ EStart t c a ∈ tr /\ has_transport cf a = true /\ kind_of (ap_request a) = KCheck.
Proof.
  unfold pass_at. destruct (h !! n) as [ev|] eqn:E; [|done]. cbn. intros G. unfold answered_op in G. destruct (cv_call ev) as [q| | |] eqn:Eq; try done.
  assert (calls KCheck (w_aggs w) !! n = Some (OnCheck (CCheck q), check_res (cv_result ev))) as Hx. { cbn [calls]. fold h. rewrite list_lookup_fmap, E. cbn. by rewrite Eq. }
  destruct (reach_asked_for _ _ R Hx eq_refl) as (t & c & a & H1 & H2 & H3 & H4). exists t, c, a. split_and!; try done. by destruct (ap_request a).
Qed.
Lemma pass_same t n c : EAgg t KCheck n (Some c) ∈ tr -> c ∈ check_calls tr -> pass_at h n = told_at c.
Proof.
  intros HA (t0 & a & Hs & Ha & Hk)%check_calls_spec. unfold tr. rewrite (api_of_start R Hs). fold tr. cbn [from_option].
  destruct (all_returned R Hc Hn Hs) as (t' & Hr). destruct (call_forwarded R Hc Hs Hr Ha) as (n' & r & E1 & E2 & E3).
  rewrite Hk in *. destruct (agg_unique R Hc Hs HA E1) as [_ <-]. unfold pass_of. destruct (ap_request a) as [q| |] eqn:Eq; try done.
  cbn [calls agg_call_of] in E2. fold h in E2. rewrite list_lookup_fmap in E2. unfold pass_at. destruct (h !! n) as [ev|] eqn:Eh; [|done]. cbn in E2 |- *. injection E2 as Ecall <-.
  unfold answered_op. rewrite Ecall. cbn [check_res rs_status rs_reply] in E3. destruct (status_eqb (cres_status (cv_result ev)) SNotFound) eqn:Es.
  - apply status_eqb_eq in Es. rewrite Es. destruct E3 as (m & E3). unfold kept_back, tr. rewrite E3. by rewrite andb_false_r.
  - destruct E3 as [E3 (t'' & E4)]. unfold kept_back. unfold tr at 2. rewrite E3, andb_true_r.
    destruct (passed tr c) eqn:Ey.
    + apply passed_spec in Ey as (t1 & r1 & Y1 & Y2). destruct (done_unique R Hc Hs Y1 E4) as [<- Yr]. destruct (cres_response (cv_result ev)) as [x|]; [|done]. injection Yr as <-. by rewrite Y2.
    + destruct (cres_status (cv_result ev)) eqn:E5; try done. destruct (cres_response (cv_result ev)) as [x|]; [|done]. destruct (cs_errors x) eqn:E6; [|done].
      exfalso. assert (passed tr c = true) by (apply passed_spec; eauto). congruence.
Qed.
Lemma answered_asking : CheckAggSpec.answered h = (asking tr).*2 ≫= fun c => told_at c.
Proof.
  unfold CheckAggSpec.answered. rewrite <- (bind_seq_check [] h). cbn [app length].
  assert (length h = length (calls KCheck (w_aggs w))) as ->. { cbn [calls]. by rewrite fmap_length. }
  rewrite <- (agg_numbered KCheck R). fold tr. unfold agg_numbers, asking. rewrite bind_bind.
  assert (forall (l : list (nat * nat)) (f : nat -> list operation), l.*2 ≫= f = l ≫= fun p => f p.2) as Hf. { intros l f. induction l as [|p l IH]; [done|]. cbn [fmap list_fmap]. by rewrite !bind_cons, <- IH. }
  rewrite Hf, bind_bind. apply bind_ext_in. intros ev Hev. destruct ev as [|t k n u| | | | | | | | | | |]; try done. destruct (decide (k = KCheck)) as [->|Hk]; [|by destruct k].
  rewrite bind_cons. cbn [mbind list_bind]. rewrite app_nil_r.
  assert (forall t' c', EAgg t' KCheck n (Some c') ∈ tr -> u = Some c') as Hu. { intros t' c' H. exact (check_event_eq Hev H). }
  destruct u as [c|].
  - destruct (decide (c ∈ check_calls tr)) as [Hq|Hq].
    + cbn. rewrite app_nil_r. by apply (pass_same Hev).
    + destruct (pass_at h n) eqn:Eg; [done|]. exfalso. destruct (@pass_asked n) as (t1 & c1 & a & H1 & H2 & H3 & H4); [by rewrite Eg|].
      specialize (Hu _ _ H1). injection Hu as <-. apply Hq, check_calls_spec. eauto.
  - destruct (pass_at h n) eqn:Eg; [done|]. exfalso. destruct (@pass_asked n) as (t1 & c1 & a & H1 & _); [by rewrite Eg|]. by specialize (Hu _ _ H1).
Qed.
Lemma asking_spec n c : (n, c) ∈ asking tr <-> (exists t, EAgg t KCheck n (Some c) ∈ tr) /\ c ∈ check_calls tr.
Proof.
  unfold asking. rewrite elem_of_list_bind. split.
  - intros (ev & H1 & H2). destruct ev as [|t k n' u| | | | | | | | | | |]; try by apply elem_of_nil in H1. destruct k; try by apply elem_of_nil in H1. destruct u as [c'|]; [|by apply elem_of_nil in H1].
    destruct (decide _) as [Hq|]; [|by apply elem_of_nil in H1]. apply elem_of_list_singleton in H1. injection H1 as -> ->. eauto.
  - intros [[t H1] H2]. exists (EAgg t KCheck n (Some c)). split; [|done]. destruct (decide _); [|done]. constructor.
Qed.
Lemma asking_NoDup1 : NoDup (asking tr).*1.
Proof.
  assert (NoDup (agg_numbers KCheck tr)) as N. { unfold tr. rewrite (agg_numbered KCheck R). apply NoDup_seq. }
  unfold asking. revert N. generalize (check_calls tr). intros S. unfold agg_numbers. generalize tr. intros l.
  induction l as [|ev l IH]; [constructor|]. rewrite !bind_cons. intros (N1 & N2 & N3)%NoDup_app. specialize (IH N3).
  destruct ev as [|t k n' u| | | | | | | | | | |]; try done. destruct k; try done. destruct u as [c|]; [|done]. destruct (decide (c ∈ S)); [|done]. cbn [app fmap list_fmap fst].
  apply NoDup_cons. split; [|done]. intros H. apply (N2 n'); [destruct (decide _); [constructor|done]|]. apply elem_of_list_fmap in H as ([n c'] & -> & H). cbn.
  apply elem_of_list_bind in H as (ev & H1 & H2). apply elem_of_list_bind. exists ev. split; [|done].
  destruct ev as [|t1 k n' u| | | | | | | | | | |]; try by apply elem_of_nil in H1. destruct k; try by apply elem_of_nil in H1. destruct u as [c2|]; [|by apply elem_of_nil in H1].
  destruct (decide (c2 ∈ S)); [|by apply elem_of_nil in H1]. apply elem_of_list_singleton in H1. injection H1 as -> ->. destruct (decide _); [constructor|done].
Qed.
Lemma asking_calls : (asking tr).*2 ≡ₚ check_calls tr.
Proof.
  apply NoDup_Permutation.
  - apply NoDup_fmap_2_strong; [|eapply NoDup_fmap_1, asking_NoDup1]. intros [n1 c1] [n2 c2] [[t1 H1] Hq]%asking_spec [[t2 H2] _]%asking_spec E. cbn in E. subst c2. f_equal.
    apply check_calls_spec in Hq as (t0 & a & Hs & _). by destruct (agg_unique R Hc Hs H1 H2).
  - apply (check_calls_NoDup R).
  - intros c. rewrite elem_of_list_fmap. split.
    + intros ([n c'] & -> & [_ H]%asking_spec). done.
    + intros Hq. pose proof Hq as (t0 & a & Hs & Ha & Hk)%check_calls_spec.
      destruct (all_returned R Hc Hn Hs) as (t' & Hr). destruct (call_forwarded R Hc Hs Hr Ha) as (n & r & E1 & _). rewrite Hk in E1. exists (n, c). split; [done|]. apply asking_spec. eauto.
Qed.
Lemma cache_passes_calls : cache_passes tr = check_calls tr ≫= fun c => told_at c.
Proof.
  unfold cache_passes, check_calls. rewrite bind_bind. apply bind_ext_in. intros ev Hev. destruct ev as [t c a| | | | | | | | | | | |]; try done.
  destruct (has_transport cf a) eqn:Ha; cbn [andb].
  - case_bool_decide as Hk; [|by destruct (ap_request a)]. cbn. rewrite app_nil_r. assert (api_of tr c = Some a) as -> by exact (api_of_start R Hev). done.
  - destruct (ap_request a) as [q| |] eqn:Eq; try done. destruct (passed tr c) eqn:Ey; [|done]. exfalso. apply passed_spec in Ey as (t1 & r1 & Y1 & _).
    by pose proof (no_transport_status R Hc Hev Ha Y1).
Qed.
Lemma passes_permutation : cache_passes tr ≡ₚ CheckAggSpec.answered h.
Proof. rewrite answered_asking, cache_passes_calls. symmetry. apply bind_Permutation, asking_calls. Qed.

(** *** What is sent *)
Lemma check_items a : removed_items KCheck a = RqCheck <$> flushed (ag_hc a).
Proof. unfold removed_items, flushed. cbn [calls]. induction (ag_hc a) as [|ev l IH]; [done|]. rewrite fmap_cons, !bind_cons, fmap_app, IH. done. Qed.
Lemma check_sent_or_dropped : sent_by_flush KCheck tr ++ dropped KCheck tr ≡ₚ RqCheck <$> flushed h.
Proof.
  pose proof (sends_conserved KCheck R Hc) as P1. pose proof (items_conserved KCheck R Hc) as P2. rewrite idle_all in P1, P2 by done. cbn [app] in P1, P2. unfold tr. by rewrite P1, P2, check_items.
Qed.
Lemma sent_callers : sent_by_callers (cf_checks cf) h ⊆+ check_operations (sent_for_calls KCheck tr).
Proof.
  assert (check_operations (sent_for_calls KCheck tr) ≡ₚ check_operations (answered_with KCheck not_found (w_aggs w))) as ->. { apply bind_Permutation. exact (all_forwarded KCheck R Hc Hn). }
  unfold answered_with, sent_by_callers, check_operations. cbn [calls]. fold h. clear. induction h as [|ev l IH]; [done|]. rewrite fmap_cons, !bind_cons, bind_app. apply submseteq_app; [|exact IH].
  unfold sent_op, not_found. cbn [fst snd check_res rs_status]. destruct (cv_call ev) as [q| | |]; try (destruct (status_eqb _ _); apply submseteq_nil_l). destruct (cres_status (cv_result ev)); try apply submseteq_nil_l.
  cbn. destruct (eligible _ q); [done|apply submseteq_nil_l].
Qed.
Lemma checks_balance : proper_clock (clk KCheck) ->
  exists st' fl groups reqs extra, cstep ord md5 (clk KCheck) (cf_checks cf) CFlushAll (ag_check (w_aggs w)) = Ok (st', CheckResult SOk None fl) /\
    RqCheck <$> reqs ≡ₚ sent_by_flush KCheck tr ++ dropped KCheck tr ++ (RqCheck <$> fl) /\
    Forall2 (reports ord md5 (cf_checks cf)) groups reqs /\ Forall (fun g => exists k, Forall (fun o => op_sig ord md5 o = k) g) groups /\
    concat groups ≡ₚ cache_passes tr ++ extra /\ extra ⊆+ check_operations (sent_for_calls KCheck tr) /\
    (last (calls KCheck (w_aggs w)).*1 = Some (OnCheck CFlushAll) -> fl = []).
Proof.
  intros Hclk. destruct (reach_sequential R) as (S1 & _). destruct (reported_once Hclk S1) as (st' & fl & groups & extra & E1 & E2 & E3 & E4 & E5 & _).
  exists st', fl, groups, (flushed h ++ fl), extra. split; [done|]. split. { rewrite fmap_app, <- check_sent_or_dropped. by rewrite app_assoc. }
  split; [done|]. split; [by eapply Forall_impl; [exact E5|]; intros g [? _]|]. split; [by rewrite passes_permutation|]. split; [etrans; [exact E4|exact sent_callers]|].
  intros Hl. cbn [calls] in Hl. rewrite <- list_fmap_compose in Hl. fold h in S1, Hl. clearbody h. destruct S1 as [st _|st h0 call st1 res S0 Hs]; [done|].
  rewrite fmap_app, last_app in Hl. cbn in Hl. injection Hl as ->.
  destruct (reported_once Hclk S0) as (st2 & fl2 & ? & ? & G1 & _ & _ & _ & _ & st3 & G2). rewrite Hs in G1. injection G1 as -> _. rewrite E1 in G2. by injection G2.
Qed.
End state.
End check.
