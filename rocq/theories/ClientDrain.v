(** Invariants of the client, part 8: the destructor empties the report cache. *)
From Verif Require Import Base Proto Signature OpAgg OpAggSpec Lru Timeout Agg CheckAgg CheckAggSpec QuotaAgg QuotaAggSpec LruSpec ReportAgg ReportAggSpec ReportDrain Client ClientSpec ClientInv ClientCalls ClientStage ClientFlush ClientLocks ClientEnd.
From stdpp Require Import gmap list.
Local Open Scope Z_scope.
Set Implicit Arguments.

Section drain.
Variable debug : bool.
Variable ord : hash_order.
Variable md5 : string -> string.
Variable clk : kind -> nat -> Z.
Variable cf : client_config.
Hypothesis Hclk : proper_clock (clk KReport).
Notation reach := (reach debug ord md5 clk cf).
Notation agg_step := (agg_step debug ord md5 clk cf).
Notation estep := (estep debug ord md5 clk cf).
Notation drained := (drained (clk KReport) (cf_reports cf)).
Implicit Types (w : world) (t : nat) (i : instr) (ths : list (list instr)) (tr : list event).

(** Reports are only given to the aggregator by calls of the user. *)
Definition by_user (_ : nat) i : Prop := match i with IAgg (OnReport (RReport _)) u | IBody (OnReport (RReport _)) u => u <> None | _ => True end.
Lemma reach_by_user ths w : reach (ths, w) -> each by_user ths.
Proof.
  revert ths w. refine (reach_ind' (fun ths w => each by_user ths) _ _ _).
  - by intros a _ t st i H.
  - intros ths w _ IH _. by apply each_spawn.
  - intros ths w t i rest new w' _ IH _ Ht E. assert (by_user t i) as Hi. { eapply IH; [done|]. apply elem_of_list_here. }
    eapply each_step; [exact IH|done|done|]. intros j Hj. destruct E; try (by in_new Hj).
    + apply elem_of_list_singleton in Hj as ->. by destruct (ap_request a).
    + rewrite !elem_of_app, elem_of_list_singleton, elem_of_list_fmap in Hj. destruct Hj as [->|[(q & -> & _)|[Hj|Hj]]]; [done|done|in_new Hj|in_new Hj].
Qed.

Definition draining ths w : Prop :=
  (w_closing w = true -> drained (ag_report (w_aggs w)) \/ exists t st i, ths !! t = Some st /\ i ∈ st /\ drains i = true) /\
  (w_connected w KReport = false -> drained (ag_report (w_aggs w))).
(** A call of the report aggregator while the client is being destroyed. *)
Lemma closing_body ths w t call u rest fuel a r : reach (ths, w) -> w_closing w = true -> ths !! t = Some (IBody call u :: rest) -> agg_step fuel call (w_aggs w) = Ok (a, r) ->
  (call_kind call <> KReport -> ag_report a = ag_report (w_aggs w)) /\
  (drained (ag_report (w_aggs w)) -> drained (ag_report a) /\ (call_kind call = KReport -> rs_flushed r = [])) /\
  (drains (IBody call u) = true -> drained (ag_report a)).
Proof.
  intros R Hc Ht E. pose proof (reach_ending R) as I. assert (IBody call u ∈ IBody call u :: rest) as Hi by apply elem_of_list_here.
  pose proof (reach_by_user R _ Ht Hi) as Hu. unfold Client.agg_step in E. destruct call as [call|call|call]; cbn [call_kind].
  - destruct (cstep _ _ _ _ _ _) as [[st res]| | |]; cbn [obind] in E; try done. by injection E as <- <-.
  - destruct (qstep _ _ _ _ _ _ _ _) as [[st res]| | |]; cbn [obind] in E; try done. by injection E as <- <-.
  - split; [done|]. destruct (rstep _ _ _ _ _ _) as [[st res]| | |] eqn:Es; cbn [obind] in E; try done. injection E as <- <-. cbn [ag_report fst snd report_res rs_flushed].
    destruct (reach_sequential R) as (_ & _ & Rr).
    assert (call = RFlush \/ call = RFlushAll) as Hf.
    { destruct call as [q| |]; [|by left|by right]. cbn in Hu. destruct u as [[c a0]|]; [|done]. exfalso.
      assert (c ∈ w_open w) as H by (eapply code_open; [exact R|apply I|exact Ht|exact Hi|cbn; set_solver]). rewrite (en_closing I Hc) in H. by apply elem_of_nil in H. }
    split.
    + intros D. eapply drained_step in Es as [D' ->]; [|done..]. done.
    + intros Hd. destruct call; try done. by eapply drained_flushall.
Qed.
Lemma reach_draining ths w : reach (ths, w) -> draining ths w.
Proof.
  revert ths w. refine (reach_ind' (fun ths w => draining ths w) _ _ _).
  - intros a _. by split.
  - intros ths w _ [IH1 IH2] _. split; [|done]. intros Hc. destruct (IH1 Hc) as [|(t & st & i & H1 & H2)]; [by left|right]. exists t, st, i. split; [|done].
    by apply lookup_app_l_Some.
  - intros ths w t i rest new w' R [IH1 IH2] _ Ht E. pose proof (reach_ending R) as I. assert (i ∈ i :: rest) as Hi by apply elem_of_list_here.
    assert (t < length ths)%nat as Hlt by (by eapply lookup_lt_Some).
    assert (w_closing w = true -> drained (ag_report (w_aggs w)) -> drained (ag_report (w_aggs w'))) as Hd.
    { intros Hc D. destruct E; try done. wsimpl. destruct (closing_body t fuel R Hc Ht H) as (H1 & H2 & _). by apply H2. }
    split.
    + intros Hc. destruct (new_enders E) as [(-> & -> & -> & Hc' & _)|[Hc' Hn]].
      { right. exists t. eexists. exists (IAgg (OnReport RFlushAll) None). split; [by apply list_lookup_insert|]. split; [|done]. cbn. set_solver. }
      rewrite Hc' in Hc. destruct (IH1 Hc) as [D|(t1 & st & j & H1 & H2 & H3)]; [left; auto|].
      destruct (decide (t1 = t)) as [->|Ne].
      2: { right. exists t1, st, j. by rewrite list_lookup_insert_ne. }
      assert (st = i :: rest) as -> by congruence. apply elem_of_cons in H2 as [->|H2].
      2: { right. exists t, (new ++ rest), j. split; [by apply list_lookup_insert|]. split; [set_solver|done]. }
      destruct E; try done.
      * by destruct i.
      * right. exists t. eexists. exists (IBody call u). split; [by apply list_lookup_insert|]. split; [set_solver|]. done.
      * left. wsimpl. destruct (closing_body t fuel R Hc Ht H) as (_ & _ & H4). by apply H4.
    + intros Hk. destruct (connected_step KReport E Hk) as [Hk'| ->].
      { apply Hd; [|by apply IH2]. by apply (en_disc I KReport). }
      assert (w_closing w = true) as Hc by (by apply (en_ender I _ Ht Hi)).
      apply Hd; [done|]. destruct (IH1 Hc) as [D|(t1 & st & j & H1 & H2 & H3)]; [done|]. exfalso.
      apply elem_of_list_split in H2 as (l1 & l2 & ->). pose proof (below_elem _ _ _ _ (en_order I _ H1)) as Ho.
      assert (IDisconnect KReport ∈ l2) as Hr. { destruct j; try (by cbn in H3); by apply Ho. }
      destruct (decide (t1 = t)) as [->|Ne].
      * destruct (en_order I _ Ht) as [H4 _]. cbn in H4. rewrite Ht in H1. destruct l1 as [|x l1]; [injection H1 as <- ->; done|]. injection H1 as <- ->.
        rewrite forallb_app in H4. apply andb_true_iff in H4 as [_ H4]. cbn [forallb] in H4. by rewrite H3 in H4.
      * pose proof (en_once I) as N. pose proof (all_step shuts _ _ [] Ht) as P. cbn in P. rewrite app_nil_r in P. rewrite <- P in N.
        apply NoDup_app in N as (_ & N & _). apply (N KReport); [|set_solver]. apply all_elem. exists t1. eexists. exists (IDisconnect KReport).
        rewrite list_lookup_insert_ne by done. split; [done|]. split; [|set_solver]. apply elem_of_app. right. by apply elem_of_list_further.
Qed.

(** ** Where the removed items are *)
Definition waiting k i : list request := match i with IFlush k' _ q | IInvoke k' _ q => if decide (k' = k) then [q] else [] | _ => [] end.
Definition sending k i : list request := match i with ITransport (FromFlush k' _) q _ => if decide (k' = k) then [q] else [] | _ => [] end.
Lemma given_snoc k tr ev : given k (tr ++ [ev]) = given k tr ++ match ev with ECallback _ k' _ q => if decide (k' = k) then [q] else [] | _ => [] end.
Proof. unfold given. rewrite bind_app. cbn. by rewrite app_nil_r. Qed.
Lemma dropped_snoc k tr ev : dropped k (tr ++ [ev]) = dropped k tr ++ match ev with EDropped _ k' _ q => if decide (k' = k) then [q] else [] | _ => [] end.
Proof. unfold dropped. rewrite bind_app. cbn. by rewrite app_nil_r. Qed.
Lemma flush_snoc k tr ev : sent_by_flush k (tr ++ [ev]) = sent_by_flush k tr ++ match ev with ETransport _ _ (FromFlush k' _) q => if decide (k' = k) then [q] else [] | _ => [] end.
Proof. unfold sent_by_flush. rewrite bind_app. cbn. by rewrite app_nil_r. Qed.
Lemma waiting_flush k k' n qs : (IFlush k' n <$> qs) ≫= waiting k = if decide (k' = k) then qs else [].
Proof. induction qs as [|q qs IH]; [by destruct (decide _)|]. rewrite fmap_cons, bind_cons, IH. cbn [waiting]. by destruct (decide _). Qed.
Lemma sending_flush k k' n qs : (IFlush k' n <$> qs) ≫= sending k = [].
Proof. induction qs as [|q qs IH]; [done|]. by rewrite fmap_cons, bind_cons, IH. Qed.
Lemma measure_step {A} (f : instr -> list A) ths t i rest new (X Y X' Y' : list A) : ths !! t = Some (i :: rest) -> all f ths ++ X ≡ₚ Y ->
  (new ≫= f) ++ X' ++ Y ≡ₚ f i ++ X ++ Y' -> all f (<[t := new ++ rest]> ths) ++ X' ≡ₚ Y'.
Proof.
  intros Ht H1 H2. pose proof (all_step f _ _ new Ht) as P. apply (Permutation_app_inv_l (f i ++ X)).
  transitivity ((all f (<[t := new ++ rest]> ths) ++ f i) ++ X ++ X'); [solve_Permutation|]. rewrite P.
  transitivity ((new ≫= f) ++ X' ++ (all f ths ++ X)); [solve_Permutation|]. rewrite H1, H2. solve_Permutation.
Qed.
Lemma items_conserved k ths w : reach (ths, w) -> w_crash w = None -> all (waiting k) ths ++ given k (w_trace w) ++ dropped k (w_trace w) ≡ₚ removed_items k (w_aggs w).
Proof.
  refine (reach_ind' (fun ths w => w_crash w = None -> all (waiting k) ths ++ given k (w_trace w) ++ dropped k (w_trace w) ≡ₚ removed_items k (w_aggs w)) _ _ _ (ths := ths) (w := w)); clear ths w.
  - intros a Ha _. unfold removed_items. cbn [new_world w_aggs w_trace]. by rewrite (proj2 (new_aggs_sequential debug _ md5 _ _ Ha)).
  - intros ths w _ IH _ Hc. rewrite all_spawn by done. by apply IH.
  - intros ths w t i rest new w' R IH Hc Ht E Hc'. eapply measure_step; [exact Ht|exact (IH Hc)|]. clear IH Hc.
    destruct E; wsimpl; try done; rewrite ?given_snoc, ?dropped_snoc, ?app_nil_r.
    all: try reflexivity.
    + unfold api_code. destruct (ap_blocking a); reflexivity.
    + destruct (agg_step_calls _ _ _ _ _ _ _ _ H) as [Hk1 Hk2]. rewrite !bind_app, waiting_flush. cbn [mbind list_bind waiting app].
      assert (forall x, x ++ list_bind _ _ (waiting k) (match u with Some (c, a0) => [IAfter c a0 (length (calls (call_kind call) (w_aggs w))) r] | None => [] end) = x) as Hu.
      { intros x. destruct u as [[]|]; cbn; apply app_nil_r. }
      rewrite Hu. unfold removed_items. destruct (decide (call_kind call = k)) as [<-|Ne].
      * rewrite Hk1, bind_app, bind_cons. cbn. rewrite app_nil_r. solve_Permutation.
      * rewrite Hk2 by done. done.
    + cbn. destruct (decide _); rewrite ?app_nil_r; reflexivity.
    + unfold callback_code. cbn. destruct (decide _), q; cbn; rewrite ?app_nil_r; solve_Permutation.
    + cbn. destruct (decide _); cbn; rewrite ?app_nil_r; solve_Permutation.
    + unfold after_code. destruct (status_eqb _ _), (ap_request a); reflexivity.
    + destruct f; try done; cbn; destruct (status_eqb _ _); reflexivity.
Qed.
Lemma sends_conserved k ths w : reach (ths, w) -> w_crash w = None -> all (sending k) ths ++ sent_by_flush k (w_trace w) ≡ₚ given k (w_trace w).
Proof.
  refine (reach_ind' (fun ths w => w_crash w = None -> all (sending k) ths ++ sent_by_flush k (w_trace w) ≡ₚ given k (w_trace w)) _ _ _ (ths := ths) (w := w)); clear ths w.
  - done.
  - intros ths w _ IH _ Hc. rewrite all_spawn by done. by apply IH.
  - intros ths w t i rest new w' R IH Hc Ht E Hc'. eapply measure_step; [exact Ht|exact (IH Hc)|]. clear IH Hc.
    destruct E; wsimpl; try done; rewrite ?given_snoc, ?flush_snoc, ?app_nil_r.
    all: try reflexivity.
    + unfold api_code. destruct (ap_blocking a); reflexivity.
    + rewrite !bind_app, sending_flush. by destruct u as [[]|].
    + unfold callback_code. cbn. destruct (decide _), q; cbn; rewrite ?app_nil_r; solve_Permutation.
    + unfold after_code. destruct (status_eqb _ _), (ap_request a); reflexivity.
    + destruct o as [|k' n]; cbn; rewrite ?app_nil_r; [reflexivity|]. destruct (decide _); cbn; rewrite ?app_nil_r; solve_Permutation.
    + destruct o as [|k' n]; cbn; rewrite ?app_nil_r; [reflexivity|]. destruct (decide _); cbn; rewrite ?app_nil_r; solve_Permutation.
    + destruct f; try done; cbn; destruct (status_eqb _ _); reflexivity.
Qed.

(** ** What is flushed late *)
Lemma agg_event_bound ths w : reach (ths, w) -> forall t k n u, EAgg t k n u ∈ w_trace w -> (n < length (calls k (w_aggs w)))%nat.
Proof.
  revert ths w. refine (reach_ind' (fun ths w => forall t k n u, EAgg t k n u ∈ w_trace w -> (n < length (calls k (w_aggs w)))%nat) _ _ _); [|done|].
  - intros a _ t k n u H. by apply elem_of_nil in H.
  - intros ths w t i rest new w' _ IH _ _ E t1 k n u1. destruct E; wsimpl; intros Hin.
    all: try (rewrite ?elem_of_app, ?elem_of_list_singleton in Hin; destruct_or? Hin; try done; by eapply IH).
    rewrite elem_of_app, elem_of_list_singleton in Hin.
    destruct (agg_step_calls _ _ _ _ _ _ _ _ H) as [Hk1 Hk2]. destruct Hin as [Hin|Hin].
    + apply IH in Hin. destruct (decide (k = call_kind call)) as [->|Ne]; [|by rewrite Hk2]. rewrite Hk1, app_length. lia.
    + injection Hin as -> -> -> ->. rewrite Hk1, app_length. cbn. lia.
Qed.
Lemma late_flush ths w : reach (ths, w) -> forall t0 l1 l2, w_trace w = l1 ++ EDisconnect t0 KReport :: l2 -> forall t n u, EAgg t KReport n u ∈ l2 ->
  forall call r, calls KReport (w_aggs w) !! n = Some (call, r) -> rs_flushed r = [].
Proof.
  revert ths w. refine (reach_ind' (fun ths w => forall t0 l1 l2, w_trace w = l1 ++ EDisconnect t0 KReport :: l2 -> forall t n u, EAgg t KReport n u ∈ l2 ->
    forall call r, calls KReport (w_aggs w) !! n = Some (call, r) -> rs_flushed r = []) _ _ _); [|done|].
  - intros a _ t0 l1 l2 H. by destruct l1.
  - intros ths w t i rest new w' R IH _ Ht E t0 l1 l2 Hl t1 n u Hin call1 r1 Hn.
    assert ((exists call u fuel a r, i = IBody call u /\ agg_step fuel call (w_aggs w) = Ok (a, r) /\ w_aggs w' = a /\ w_trace w' = w_trace w ++ [EAgg t (call_kind call) (length (calls (call_kind call) (w_aggs w))) (fst <$> u)]) \/
      (w_aggs w' = w_aggs w /\ exists evs, w_trace w' = w_trace w ++ evs /\ Forall (fun ev => match ev with EAgg _ _ _ _ => False | _ => True end) evs)) as HE.
    { destruct E; wsimpl; try (by left; eexists _, _, _, _, _); right; (split; [done|]).
      all: try (exists []; rewrite app_nil_r; by split).
      all: try (eexists; split; [rewrite <- ?app_assoc; reflexivity|by repeat constructor]). }
    destruct HE as [(call & u1 & fuel & a & r & -> & H & Ha & Htr)|[Ha (evs & Htr & Hev)]].
    + rewrite Ha in Hn. rewrite Htr in Hl. destruct l2 as [|x l2 _] using rev_ind; [by apply elem_of_nil in Hin|].
      rewrite app_comm_cons, app_assoc in Hl. apply app_inj_tail in Hl as [Hl <-].
      destruct (agg_step_calls _ _ _ _ _ _ _ _ H) as [Hk1 Hk2].
      assert (w_connected w KReport = false) as Hk. { apply (disconnect_event R). exists t0. rewrite Hl. set_solver. }
      apply elem_of_app in Hin as [Hin|Hin%elem_of_list_singleton].
      * eapply (IH _ _ _ Hl); [exact Hin|]. assert (n < length (calls KReport (w_aggs w)))%nat as Hlt.
        { eapply agg_event_bound; [exact R|]. rewrite Hl. apply elem_of_app. right. by apply elem_of_list_further. }
        destruct (decide (KReport = call_kind call)) as [Ek|Ne]; [|by rewrite Hk2 in Hn]. rewrite Ek in *. by rewrite Hk1, lookup_app_l in Hn.
      * injection Hin as _ Ek -> _. rewrite Ek in Hn at 1. rewrite Hk1, lookup_app_r, Nat.sub_diag in Hn by done. injection Hn as <- <-.
        pose proof (reach_ending R) as I. destruct (closing_body t fuel R (en_disc I _ Hk) Ht H) as (_ & H2 & _). apply H2; [|done]. by apply (reach_draining R).
    + rewrite Ha in Hn. rewrite Htr in Hl. clear Htr. revert l2 Hl Hin. induction evs as [|ev evs IHe] using rev_ind; intros l2 Hl Hin.
      * rewrite app_nil_r in Hl. by eapply IH.
      * apply Forall_app in Hev as [Hev Hev1]. destruct l2 as [|x l2 _] using rev_ind; [by apply elem_of_nil in Hin|].
        rewrite app_comm_cons, !app_assoc in Hl. apply app_inj_tail in Hl as [Hl <-]. apply elem_of_app in Hin as [Hin|Hin%elem_of_list_singleton].
        -- by eapply IHe.
        -- subst ev. by apply Forall_inv in Hev1.
Qed.
Lemma report_items a : removed_items KReport a = RqReport <$> rflushed (ag_hr a).
Proof.
  unfold removed_items, rflushed. cbn [calls]. induction (ag_hr a) as [|ev h IH]; [done|]. rewrite fmap_cons, !bind_cons, fmap_app, IH. done.
Qed.

(** A report whose call had returned, or that a later call removes, is not lost. *)
Lemma destroyed_reports ths w t l1 l2 : reach (ths, w) -> w_crash w = None -> w_trace w = l1 ++ EDisconnect t KReport :: l2 ->
  (forall t' n u, EAgg t' KReport n u ∈ l1 -> EAggReturn t' KReport n ∈ l1) ->
  dropped KReport (w_trace w) = [] /\ sent_by_flush KReport (w_trace w) ≡ₚ RqReport <$> rflushed (ag_hr (w_aggs w)) /\
  exists gs, Forall2 (merges ord md5 (cf_reports cf)) gs (ops_of (rflushed (ag_hr (w_aggs w)))) /\ split_into ord md5 (accepted (ag_hr (w_aggs w))) gs.
Proof.
  intros R Hc Hl Hret.
  assert (w_connected w KReport = false) as Hk. { apply (disconnect_event R). exists t. rewrite Hl. set_solver. }

  assert (forall n call r, calls KReport (w_aggs w) !! n = Some (call, r) ->
    (exists t0 gs, EAggReturn t0 KReport n ∈ l1 /\ handled KReport n (w_trace w) = (pair t0 <$> gs) ++ [(t0, Returned)] /\ item_of <$> gs = Some <$> rs_flushed r) \/ rs_flushed r = []) as Hn.
  { intros n call r En. pose proof (reach_delivery R Hc KReport n) as D. unfold delivery in D. rewrite En in D.
    destruct D as (t0 & st & u & H1 & H2 & H3 & H4 & H5). rewrite Hl, elem_of_app, elem_of_cons in H2. destruct H2 as [H2|[H2|H2]]; [|done|].
    - left. apply Hret in H2. assert (EAggReturn t0 KReport n ∈ w_trace w) as Hr by (rewrite Hl; set_solver).
      destruct (returned_delivered R Hc Hr) as (call' & r' & u' & E1 & _ & gs & E2 & E3). rewrite En in E1. injection E1 as <- <-. by exists t0, gs.
    - right. by eapply late_flush. }
  assert (all (waiting KReport) ths = []) as Hw.
  { destruct (all (waiting KReport) ths) as [|q l] eqn:El; [done|]. exfalso. assert (q ∈ all (waiting KReport) ths) as Hq by (rewrite El; apply elem_of_list_here).
    apply all_elem in Hq as (t' & st & i & H1 & H2 & H3). assert (exists n, Some q ∈ todo KReport n i) as (n & H4).
    { destruct i; cbn in H3; try (by apply elem_of_nil in H3); destruct (decide (k = KReport)) as [->|]; try (by apply elem_of_nil in H3);
        apply elem_of_list_singleton in H3 as ->; exists n; cbn; rewrite bool_decide_true by done; set_solver. }
    assert (Some q ∈ st ≫= todo KReport n) as H5. { apply elem_of_list_bind. by exists i. }
    pose proof (reach_delivery R Hc KReport n) as D. unfold delivery in D. destruct (calls KReport (w_aggs w) !! n) as [[call r]|] eqn:En.
    - destruct D as (t0 & st0 & u & D1 & D2 & D3 & D4 & D5). destruct (decide (t' = t0)) as [->|Ne]; [|by rewrite (D4 _ _ H1 Ne) in H5; apply elem_of_nil in H5].
      assert (st0 = st) as -> by congruence. destruct (Hn _ _ _ En) as [(t1 & gs & _ & E2 & E3)|E].
      + apply (f_equal length) in D5. rewrite E2, !app_length, fmap_length, !app_length, !fmap_length in D5. apply (f_equal length) in E3. rewrite !fmap_length in E3.
        destruct (st ≫= todo KReport n); [by apply elem_of_nil in H5|]. cbn in D5. lia.
      + rewrite E in D5. cbn in D5. assert (Some q ∈ [None]) as Hx; [|by apply elem_of_list_singleton in Hx]. rewrite <- D5. apply elem_of_app. by right.
    - destruct D as [D _]. rewrite (D _ _ H1) in H5. by apply elem_of_nil in H5. }
  assert (all (sending KReport) ths = []) as Hs.
  { destruct (all (sending KReport) ths) as [|q l] eqn:El; [done|]. exfalso. assert (q ∈ all (sending KReport) ths) as Hq by (rewrite El; apply elem_of_list_here).
    apply all_elem in Hq as (t' & st & i & H1 & H2 & H3). pose proof (en_conn (reach_ending R) _ H1 H2) as Hx.
    destruct i; cbn in H3; try (by apply elem_of_nil in H3). destruct o as [|k n]; [by apply elem_of_nil in H3|]. cbn in Hx. destruct (decide (k = KReport)) as [->|]; [|by apply elem_of_nil in H3]. congruence. }
  assert (dropped KReport (w_trace w) = []) as Hd.
  { destruct (dropped KReport (w_trace w)) as [|q l] eqn:El; [done|]. exfalso. assert (q ∈ dropped KReport (w_trace w)) as Hq by (rewrite El; apply elem_of_list_here).
    apply elem_of_list_bind in Hq as (ev & H1 & H2). destruct ev; try (by apply elem_of_nil in H1). destruct (decide (k = KReport)) as [->|]; [|by apply elem_of_nil in H1].
    apply elem_of_list_singleton in H1 as <-. pose proof (reach_in_order R) as O.
    assert (EDropped t0 KReport n q ∈ l2) as H3.
    { rewrite Hl, elem_of_app, elem_of_cons in H2. destruct H2 as [H2|[H2|H2]]; [|done|done]. exfalso. apply elem_of_list_split in H2 as (m1 & m2 & ->).
      destruct (O (m1) (EDropped t0 KReport n q) (m2 ++ EDisconnect t KReport :: l2)) as (t1 & H3); [by rewrite Hl, <- app_assoc|].
      destruct (O _ _ _ Hl) as [_ H4]. apply (H4 t1). apply elem_of_app. by left. }
    assert ((t0, Dropped q) ∈ handled KReport n (EDisconnect t KReport :: l2)) as H4.
    { apply elem_of_list_bind. exists (EDropped t0 KReport n q). cbn. rewrite bool_decide_true by done. split; [set_solver|]. by apply elem_of_list_further. }
    assert (handled KReport n (w_trace w) = handled KReport n l1 ++ handled KReport n (EDisconnect t KReport :: l2)) as H5. { rewrite Hl. unfold handled. by rewrite bind_app. }
    pose proof (reach_delivery R Hc KReport n) as D. unfold delivery in D. destruct (calls KReport (w_aggs w) !! n) as [[call r]|] eqn:En.
    - destruct D as (t1 & st0 & u & D1 & D2 & D3 & D4 & D5). destruct (Hn _ _ _ En) as [(t2 & gs & E1 & E2 & E3)|E].
      + assert ((t2, Returned) ∈ handled KReport n l1) as H6. { apply elem_of_list_bind. exists (EAggReturn t2 KReport n). cbn. rewrite bool_decide_true by done. split; [set_solver|done]. }
        rewrite E2 in H5. destruct (handled KReport n (EDisconnect t KReport :: l2)) as [|x B _] using rev_ind; [by apply elem_of_nil in H4|].
        rewrite app_assoc in H5. apply app_inj_tail in H5 as [H5 _]. assert ((t2, Returned) ∈ pair t2 <$> gs) as H7. { rewrite H5. apply elem_of_app. by left. }
        apply elem_of_list_fmap in H7 as (f & [= <-] & H7). assert (None ∈ item_of <$> gs) as H8. { apply elem_of_list_fmap. by exists Returned. }
        rewrite E3 in H8. by apply elem_of_list_fmap in H8 as (? & ? & ?).
      + rewrite E in D5. cbn in D5. assert (Some q ∈ [None]) as Hx; [|by apply elem_of_list_singleton in Hx]. rewrite <- D5. apply elem_of_app. left.
        apply elem_of_list_fmap. exists (t0, Dropped q). split; [done|]. rewrite H5. apply elem_of_app. by right.
    - destruct D as [_ D]. rewrite D in H5. symmetry in H5. apply app_nil in H5 as [_ H5]. rewrite H5 in H4. by apply elem_of_nil in H4. }
  split; [done|]. split.
  - pose proof (sends_conserved KReport R Hc) as P1. pose proof (items_conserved KReport R Hc) as P2. rewrite Hs in P1. rewrite Hw, Hd, app_nil_r, report_items in P2. cbn [app] in P1, P2. by rewrite P1, P2.
  - destruct (reach_sequential R) as (_ & _ & Rr). eapply drained_settles; [exact Hclk|exact Rr|]. by apply (reach_draining R).
Qed.
End drain.
