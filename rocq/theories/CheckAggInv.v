(** The invariant of the check aggregator over histories, and what follows from it. *)
From Verif Require Import Base Proto Signature OpAgg OpAggSpec Lru LruSim LruOps LruOps2 LruSpec Timeout TimeoutSign Agg AggCache OpGroups CheckAgg CheckAggSpec CheckAggProofs.
From stdpp Require Import gmap list.
Local Open Scope Z_scope.
Set Implicit Arguments.

(** *** most recent events *)
Section recent.
Implicit Types (P : check_event -> Prop) (h : list check_event) (ev : check_event).
Lemma mr_skip P h ev e : most_recent P h ev -> ~ P e -> most_recent P (h ++ [e]) ev.
Proof. intros (h1 & h2 & -> & H1 & H2) He. exists h1, (h2 ++ [e]). split; [by rewrite <- app_assoc|]. split; [done|]. apply Forall_app. by split; [|constructor]. Qed.
Lemma mr_new P h e : P e -> most_recent P (h ++ [e]) e.
Proof. intros He. exists h, []. done. Qed.
End recent.

Section inv.
Variable ord : hash_order.
Variable md5 : string -> string.
Variable clk : nat -> Z.
Variable cf : check_config.
Hypothesis Hclk : proper_clock clk.
Notation cell := (nat * ent check_elem)%type.
Notation gone := (removed_check ord cf).
Notation mx := (co_entries (cc_options cf)).
Notation sg := (sig_of ord md5).
Notation F := (flush_interval_in_cycle cf).
Notation step := (cstep ord md5 clk cf).
Notation Accs := (Acc ord md5 (cc_kinds cf) ce_agg (op_sig ord md5)).
Notation outs := (out ord ce_agg).
Implicit Types (c : lru nat) (u : pool check_elem check_request) (l : list cell) (p : cell) (q : check_request) (e : check_elem) (st : check_agg)
  (h : list check_event) (ev : check_event).
Let Hmono := proj1 Hclk.
Let Hpos := proj2 Hclk.

Definition req_of (o : operation) : check_request := CheckRequest (cc_service cf) (Some o) (cc_config_id cf) "".
Lemma emit_out (gs : list cell) items : emit gone gs items = items ++ (req_of <$> outs gs).
Proof.
  unfold emit. revert items. induction gs as [|p gs IH]; intros items; cbn [foldl]; [by rewrite app_nil_r|]. rewrite IH. unfold out. csimpl. fold (outs gs).
  unfold removed_check, ReturnCheckRequest, add_item, never_merge. destruct (ce_agg (n_val p.2)) as [a|]; csimpl; [|done].
  destruct (last items); rewrite <- app_assoc; done.
Qed.

Record good h p : Prop := {
  gd_answer : exists ev, most_recent (fun ev => exists r, stores ord md5 (n_key p.2) r ev) h ev /\ stores ord md5 (n_key p.2) (ce_response (n_val p.2)) ev;
  gd_refresh : exists ev, most_recent (refreshes ord md5 cf (n_key p.2)) h ev /\ during clk (ce_last (n_val p.2)) ev;
  gd_used : exists ev, most_recent (mentions ord md5 cf (n_key p.2)) h ev /\ during clk (n_last p.2) ev }.

(** events in the order of their clock readings *)
Record timely (n : nat) h : Prop := {
  tm_in : Forall (fun ev => (cv_from ev <= cv_to ev <= n)%nat) h;
  tm_sorted : StronglySorted (fun a b => (cv_to a <= cv_from b)%nat) h }.

Record Chk (idle : Z) c u l h : Prop := {
  ck_rep : ARep clk mx idle true c u l;
  ck_items : p_items u = [];
  ck_good : Forall (good h) l;
  ck_time : timely (l_tick c) h;
  ck_acc : exists ops extra, flushed h = req_of <$> ops /\ Accs l ops (answered h ++ extra) (all_checked h) /\ extra ⊆+ sent_by_callers cf h }.

Definition Inv (o : option Z) st h : Prop :=
  match ca_cache st with
  | None => mx <= 0 /\ flushed h = [] /\ answered h = [] /\ timely 0 h
  | Some c => 1 <= mx /\ cycles_of_ms (co_expiration_ms (cc_options cf)) = Ok o /\ exists l, Chk (timeout_of o) c (ca_pool st) l h
  end.

Lemma timely_snoc n n' h call res st' : timely n h -> (n <= n')%nat -> timely n' (h ++ [CheckEvent call res n n' st']).
Proof.
  intros [T1 T2] Hn. split.
  - apply Forall_app. split; [|constructor; [cbn; lia|done]]. eapply Forall_impl; [exact T1|]. intros ev H. cbn in *. lia.
  - induction T2 as [|x h S IH Fx]; cbn; [by repeat constructor|]. apply Forall_cons in T1 as [Tx T1]. constructor; [auto|].
    apply Forall_app. split; [done|]. constructor; [cbn; lia|done].
Qed.

Lemma answered_snoc h ev : answered (h ++ [ev]) = answered h ++ answered_op ev.
Proof. unfold answered. rewrite bind_app. cbn. by rewrite app_nil_r. Qed.
Lemma sent_snoc h ev : sent_by_callers cf (h ++ [ev]) = sent_by_callers cf h ++ sent_op cf ev.
Proof. unfold sent_by_callers. rewrite bind_app. cbn. by rewrite app_nil_r. Qed.
Lemma checked_snoc h ev : all_checked (h ++ [ev]) = all_checked h ++ check_op ev.
Proof. unfold all_checked. rewrite bind_app. cbn. by rewrite app_nil_r. Qed.
Lemma flushed_snoc h ev : flushed (h ++ [ev]) = flushed h ++ cres_flushed (cv_result ev).
Proof. unfold flushed. rewrite bind_app. cbn. by rewrite app_nil_r. Qed.

Lemma good_skip h p ev : good h p -> ~ mentions ord md5 cf (n_key p.2) ev -> good (h ++ [ev]) p.
Proof.
  intros [(e1 & A1 & A2) (e2 & B1 & B2) (e3 & C1 & C2)] Hn. split.
  - exists e1. split; [|done]. apply mr_skip; [done|]. intros Hs. apply Hn. by right.
  - exists e2. split; [|done]. apply mr_skip; [done|]. intros [Hs|Hs]; apply Hn; [left; by eexists|by right].
  - exists e3. split; [|done]. by apply mr_skip.
Qed.
Lemma mention_check q res a b st k : mentions ord md5 cf k (CheckEvent (CCheck q) res a b st) -> eligible cf q = true /\ sg q = k.
Proof. intros [(s & q' & H & ? & ? & ?)|(r & q' & H & ?)]; cbn in H; by inversion H; subst. Qed.
Lemma mention_cache q r res a b st k : mentions ord md5 cf k (CheckEvent (CCacheResponse q r) res a b st) -> sg q = k.
Proof. intros [(s & q' & H & ? & ? & ?)|(r' & q' & H & ?)]; cbn in H; by inversion H; subst. Qed.

Lemma check_bypass q st : eligible cf q = false \/ ca_cache st = None ->
  exists s, Check ord md5 clk cf q st = Ok (st, CheckResult s None []) /\ s <> SOk.
Proof.
  unfold Check, eligible. intros H. destruct (String.eqb (cr_service q) (cc_service cf)); cbn [negb andb] in *; [|by eexists].
  destruct (cr_operation q) as [o|]; [|by eexists]. destruct (ca_cache st) as [c|]; [|by eexists].
  destruct H as [->|H]; [|done]. by eexists.
Qed.
Lemma answered_not_ok call s fl a b st : s <> SOk -> answered_op (CheckEvent call (CheckResult s None fl) a b st) = [].
Proof. destruct call, s; done. Qed.
Lemma op_sig_get q : op_sig ord md5 (op_get (cr_operation q)) = sg q.
Proof. unfold op_sig, sig_of, GenerateCheckRequestSignature. done. Qed.

(** a call that changes nothing but the history *)
Lemma chk_idle_event idle c u l h ev : Chk idle c u l h -> cres_flushed (cv_result ev) = [] -> answered_op ev = [] -> (forall k, ~ mentions ord md5 cf k ev) ->
  timely (l_tick c) (h ++ [ev]) -> Chk idle c u l (h ++ [ev]).
Proof.
  intros [R1 R2 R3 R4 (ops & extra & A1 & A2 & A3)] Hf Ha Hm Ht. split; [done|done| |done|].
  - eapply Forall_impl; [exact R3|]. intros p Hp. by apply good_skip.
  - exists ops, extra. rewrite flushed_snoc, Hf, app_nil_r, answered_snoc, Ha, app_nil_r, checked_snoc, sent_snoc. split; [done|]. split.
    + eapply acc_more; [exact A2|]. by apply sublist_inserts_r.
    + etrans; [exact A3|]. by apply submseteq_inserts_r.
Qed.

Lemma sub_good h l l1 : Forall (good h) l -> (forall p, p ∈ l1 -> p ∈ l) -> forall p, p ∈ l1 -> good h p.
Proof. intros H S p Hp. rewrite Forall_forall in H. auto. Qed.

Lemma chk_step o c u l h call st' res : let st := CheckAgg (Some c) u in
  Chk (timeout_of o) c u l h -> step call st = Ok (st', res) ->
  exists c' l', ca_cache st' = Some c' /\ Chk (timeout_of o) c' (ca_pool st') l' (h ++ [CheckEvent call res (l_tick c) (l_tick c') st']).
Proof.
  intros st HC Hs. set (idle := timeout_of o) in *. pose proof HC as [R1 R2 R3 R4 (ops & extra & A1 & A2 & A3)].
  set (t := l_tick c) in *. set (l1 := fresh_cells idle (clk t) l).
  pose proof (stale_fresh idle (clk t) l) as SP. fold l1 in SP.
  assert (Hin1 : forall p, p ∈ l1 -> p ∈ l). { intros p Hp. rewrite <- SP. apply elem_of_app. by right. }
  assert (Nk1 : NoDup (n_key <$> l1.*2)).
  { pose proof (ar_keys R1) as Nk. rewrite <- SP in Nk. rewrite !fmap_app in Nk. by apply NoDup_app in Nk as (_ & _ & ?). }
  assert (Na1 : NoDup l1.*1).
  { pose proof (ar_addrs R1) as Na. rewrite <- SP in Na. rewrite !fmap_app in Na. by apply NoDup_app in Na as (_ & _ & ?). }
  assert (ACC1 : Accs l1 (ops ++ outs (stale_cells idle (clk t) l)) (answered h ++ extra) (all_checked h)).
  { eapply acc_remove; [exact A2|]. by symmetry. }
  assert (G1 := sub_good R3 Hin1).
  destruct call as [q|q r| |]; cbn [cstep] in Hs.
  - (* Check *)
    destruct (eligible cf q) eqn:Eq.
    2: { destruct (check_bypass q st (or_introl Eq)) as (s & E1 & E2). rewrite E1 in Hs. inversion Hs; subst st' res; clear Hs. exists c, l. split; [done|].
         apply chk_idle_event; [done|done|by apply answered_not_ok| |by apply timely_snoc].
         intros k Hk. apply mention_check in Hk as [? _]. congruence. }
    assert (Hother : forall p res a b, p ∈ l1 -> n_key p.2 <> sg q -> good (h ++ [CheckEvent (CCheck q) res a b st']) p).
    { intros p res0 a b Hp Hne. apply good_skip; [auto|]. intros Hm. apply mention_check in Hm as [_ Hm]. congruence. }
    destruct (run_check ord md5 cf Hclk q R1 Eq) as [(Hk & c' & u' & E1 & E2 & E3 & E4)|(p & Hp & Ek & HM)].
    + subst st. rewrite E1 in Hs. inversion Hs; subst st' res; clear Hs. exists c', l1. split; [done|]. split; [done|done| | |].
      * apply Forall_forall. intros p Hp. apply Hother; [done|]. intros E0. apply Hk. rewrite <- E0. apply elem_of_list_fmap. exists p.2. split; [done|]. by apply elem_of_list_fmap_1.
      * apply timely_snoc; [done|]. rewrite E3. lia.
      * eexists _, extra. rewrite flushed_snoc, answered_snoc, checked_snoc, sent_snoc, answered_not_ok by done. cbn [cv_result cres_flushed].
        rewrite emit_out, A1, app_nil_r. cbn [app]. split; [by rewrite <- fmap_app|]. split.
        -- eapply acc_more; [exact ACC1|]. by apply sublist_inserts_r.
        -- etrans; [exact A3|]. by apply submseteq_inserts_r.
    + fold t in HM. set (t1 := (t + reads idle)%nat) in *. fold l1 in Hp, HM.
      destruct (absorb ord md5 cf q (n_val p.2)) as [e1| | |] eqn:Ea; try (by destruct (HM _ Hs)).
      destruct HM as (c' & u' & e2 & E1 & E2 & E3 & E4 & E5 & E6 & E7). subst st. rewrite E1 in Hs. set (due := F <=? clk t1 - ce_last (n_val p.2)) in *.
      inversion Hs; subst st' res; clear Hs. set (n := if due then S (S t1) else S t1) in *. set (st' := CheckAgg (Some c') u') in *.
      rewrite <- Ek in E2. exists c', (touch clk true (n_key p.2) e2 n l1). split; [done|].
      assert (Ht1 : (t <= t1)%nat) by lia. 
      assert (Hn : (S t1 <= n)%nat) by (unfold n; destruct due; lia).
      split; [done|done| | |].
      * apply Forall_forall. intros p' Hp'. apply (touch_in clk true e2 n Nk1 Hp) in Hp' as [->|[Hp' Hne]]; [|apply Hother; [done|congruence]].
        pose proof (G1 _ Hp) as [(v1 & B1 & B2) (v2 & C1 & C2) _].
        split; cbn [fst snd n_key n_val n_last].
        -- exists v1. rewrite E6. split; [|done]. apply mr_skip; [done|]. by intros (r & q' & X & _).
        -- rewrite E7. destruct due eqn:Ed.
           ++ eexists. split; [apply mr_new|].
              ** left. exists q. split; [done|]. split; [done|]. split; [done|]. done.
              ** exists (S t1). cbn [cv_from cv_to]. split; [|done]. rewrite E3. unfold n. lia.
           ++ exists v2. split; [|done]. apply mr_skip; [done|]. intros [(q' & X & _ & _ & Y)|(r & q' & X & _)]; [|done]. by cbn in Y.
        -- eexists. split; [apply mr_new|].
           ++ left. eexists _, q. split; [done|]. split; [done|]. split; [done|]. done.
           ++ exists n. cbn [cv_from cv_to]. split; [|done]. rewrite E3. lia.
      * apply timely_snoc; [done|]. rewrite E3. lia.
      * rewrite emit_out. cbn [app].
        assert (Q : op_sig ord md5 (op_get (cr_operation q)) = n_key p.2) by (by rewrite op_sig_get).
        unfold absorb in Ea. destruct (cs_errors (ce_response (n_val p.2))) as [|x xs] eqn:Ex.
        -- (* absorbed *)
           assert (Hagg : exists oa, absorb1 ord md5 (cc_kinds cf) (op_get (cr_operation q)) (ce_agg (n_val p.2)) = Ok oa /\ ce_agg e2 = Some oa).
           { unfold Aggregate in Ea. rewrite E5. destruct (match ce_agg (n_val p.2) with Some _ => _ | None => _ end) as [oa| | |] eqn:E0 in Ea; try done.
             exists oa. cbn [obind] in Ea. inversion Ea; subst e1. split; [|done]. unfold absorb1. destruct (ce_agg (n_val p.2)); done. }
           destruct Hagg as (oa & O1 & O2).
           pose proof (acc_absorb clk true e2 n (op_get (cr_operation q)) ACC1 Hp Nk1 Na1 O1 O2 Q) as ACC2.
           destruct due eqn:Ed.
           ++ eexists _, (extra ++ [op_get (cr_operation q)]). rewrite flushed_snoc, A1. cbn [cv_result cres_flushed]. split; [by rewrite <- fmap_app|].
              rewrite answered_snoc, answered_not_ok, app_nil_r by done. rewrite app_assoc, checked_snoc. split; [exact ACC2|].
              rewrite sent_snoc. unfold sent_op. cbn [cv_call cv_result cres_status]. rewrite Eq. by apply submseteq_app.
           ++ eexists _, extra. rewrite flushed_snoc, A1. cbn [cv_result cres_flushed]. split; [by rewrite <- fmap_app|].
              rewrite answered_snoc. unfold answered_op. cbn [cv_call cv_result cres_status cres_response]. rewrite Ex, checked_snoc. split.
              ** eapply acc_perm; [exact ACC2|done|]. rewrite <- !app_assoc. f_equiv. apply Permutation_app_comm.
              ** rewrite sent_snoc. by apply submseteq_inserts_r.
        -- inversion Ea; subst e1. pose proof (acc_touch clk true e2 n ACC1 Hp Nk1 E5) as ACC2.
           eexists _, extra. rewrite flushed_snoc, A1. cbn [cv_result cres_flushed]. split; [by rewrite <- fmap_app|]. 
           assert (Hno : answered_op (CheckEvent (CCheck q) (CheckResult (if due then SNotFound else SOk) (if due then None else Some (ce_response (n_val p.2)))
               (req_of <$> outs (stale_cells idle (clk t) l))) t (l_tick c') st') = []).
           { unfold answered_op. cbn [cv_call cv_result cres_status cres_response]. destruct due; [done|]. by rewrite Ex. }
           rewrite answered_snoc. rewrite Hno, app_nil_r. split.
           ++ eapply acc_more; [exact ACC2|]. rewrite checked_snoc. by apply sublist_inserts_r.
           ++ rewrite sent_snoc. by apply submseteq_inserts_r.
  - (* CacheResponse *)
    assert (Hother : forall p res a b, p ∈ l1 -> n_key p.2 <> sg q -> good (h ++ [CheckEvent (CCacheResponse q r) res a b st']) p).
    { intros p res0 a b Hp Hne. apply good_skip; [auto|]. intros Hm. apply mention_cache in Hm. congruence. }
    assert (Hnew : forall p res a b i j m, n_key p.2 = sg q -> ce_response (n_val p.2) = r -> ce_last (n_val p.2) = clk i -> n_last p.2 = clk j ->
       (a <= i < b)%nat -> (a <= j < b)%nat -> m = CheckEvent (CCacheResponse q r) res a b st' -> good (h ++ [m]) p).
    { intros p res0 a b i j m K1 K2 K3 K4 Hi Hj ->. assert (HS : stores ord md5 (n_key p.2) r (CheckEvent (CCacheResponse q r) res0 a b st')) by (exists q; by rewrite K1).
      split; eexists; (split; [apply mr_new|]).
      - by exists r.
      - rewrite K2. done.
      - right. by exists r.
      - exists i. split; done.
      - right. by exists r.
      - exists j. split; done. }
    destruct (run_cache ord md5 cf Hclk q r R1) as [(Hk & c' & u' & a & E1 & E2 & E3 & E4)|(p & Hp & Ek & c' & u' & e2 & E1 & E2 & E3 & E4 & E5 & E6 & E7)];
      fold t in E1, E2, E3; set (t1 := (t + reads idle)%nat) in *; subst st; rewrite E1 in Hs; inversion Hs; subst st' res; clear Hs; fold l1 in E2.
    + fold l1 in Hk. assert (Hdrop : l1 ≡ₚ rev (drop (room mx) l1) ++ take (room mx) l1).
      { rewrite <- Permutation_rev, Permutation_app_comm. by rewrite take_drop. }
      exists c'. eexists. split; [done|]. split; [exact E2|done| | |].
      * constructor.
        -- eapply Hnew; try done; rewrite E3; lia.
        -- apply Forall_forall. intros p Hp. assert (Hp1 : p ∈ l1) by (rewrite Hdrop; apply elem_of_app; by right). apply Hother; [done|].
           intros E0. apply Hk. rewrite <- E0. apply elem_of_list_fmap. exists p.2. split; [done|]. by apply elem_of_list_fmap_1.
      * apply timely_snoc; [done|]. rewrite E3. lia.
      * rewrite !emit_out. cbn [app]. rewrite <- fmap_app. eexists _, extra. rewrite flushed_snoc, A1. cbn [cv_result cres_flushed]. split; [by rewrite <- fmap_app|].
        rewrite answered_snoc, checked_snoc, sent_snoc. cbn [answered_op check_op cv_call]. rewrite !app_nil_r. split.
        -- apply acc_new; [|by apply ar_addrs in E2; csimpl in E2; apply NoDup_cons in E2 as [? _]|done]. rewrite app_assoc. eapply acc_remove; [exact ACC1|done].
        -- done.
    + rewrite <- Ek in E2. exists c'. eexists. split; [done|]. split; [exact E2|done| | |].
      * apply Forall_forall. intros p' Hp'. apply (touch_in clk true e2 _ Nk1 Hp) in Hp' as [->|[Hp' Hne]]; [|apply Hother; [done|congruence]].
        fold t in E7. fold t1 in E7. eapply Hnew; try done; rewrite E3; lia.
      * apply timely_snoc; [done|]. rewrite E3. lia.
      * rewrite !emit_out. cbn [app]. eexists _, extra. rewrite flushed_snoc, A1. cbn [cv_result cres_flushed]. split; [by rewrite <- fmap_app|].
        rewrite answered_snoc, checked_snoc, sent_snoc. unfold sent_op. cbn [answered_op check_op cv_call]. rewrite !app_nil_r. split; [|done].
        by apply acc_touch.
  - (* Flush *)
    subst st. unfold Flush in Hs. cbn [ca_cache ca_pool] in Hs.
    change (OnCacheEntryDelete ord cf) with (passive (delete_with gone)) in Hs.
    destruct (agg_expire gone Hmono Hpos (ar_items [] R1)) as (c' & u' & E1 & E2 & E3 & E4). fold t in E3, E4. rewrite E1 in Hs. cbn [obind finish fst snd] in Hs.
    inversion Hs; subst st' res; clear Hs. exists c', l1. split; [done|]. split; [apply (ar_items []) in E2; exact E2|done| | |].
    + apply Forall_forall. intros p Hp. apply good_skip; [auto|]. by intros [(s & q' & X & _)|(r & q' & X & _)].
    + apply timely_snoc; [done|]. rewrite E3. lia.
    + cbn [p_items with_items] in E4. rewrite emit_out in E4. rewrite E4. cbn [app].
      eexists _, extra. rewrite flushed_snoc, A1. cbn [cv_result cres_flushed]. split; [by rewrite <- fmap_app|].
      rewrite answered_snoc, checked_snoc, sent_snoc. unfold sent_op. cbn [answered_op check_op cv_call]. rewrite !app_nil_r. done.
  - (* FlushAll *)
    subst st. unfold FlushAll in Hs. cbn [ca_cache ca_pool] in Hs.
    change (OnCacheEntryDelete ord cf) with (passive (delete_with gone)) in Hs.
    destruct (agg_removeall gone ord (ar_items [] R1)) as (c' & u' & gs & E1 & E0 & E2 & E3 & E4). rewrite E1 in Hs. cbn [obind finish fst snd] in Hs.
    inversion Hs; subst st' res; clear Hs. exists c', []. split; [done|]. split; [apply (ar_items []) in E2; exact E2|done|constructor| |].
    + apply timely_snoc; [done|]. rewrite E3. done.
    + cbn [p_items with_items] in E4. rewrite emit_out in E4. rewrite E4. cbn [app].
      eexists _, extra. rewrite flushed_snoc, A1. cbn [cv_result cres_flushed]. split; [by rewrite <- fmap_app|].
      rewrite answered_snoc, checked_snoc, sent_snoc. unfold sent_op. cbn [answered_op check_op cv_call]. rewrite !app_nil_r. split; [|done].
      eapply acc_remove; [exact A2|]. by rewrite app_nil_r.
Qed.
End inv.
