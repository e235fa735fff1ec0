(** The check aggregator's properties, derived from the invariant. *)
From Verif Require Import Base Proto Signature OpAgg OpAggSpec Lru LruSim LruOps LruOps2 LruSpec Timeout TimeoutProofs TimeoutSign Agg AggCache OpGroups CheckAgg CheckAggSpec CheckAggProofs CheckAggInv.
From stdpp Require Import gmap list.
Local Open Scope Z_scope.
Set Implicit Arguments.

Section claims.
Variable ord : hash_order.
Variable md5 : string -> string.
Variable clk : nat -> Z.
Variable cf : check_config.
Hypothesis Hclk : proper_clock clk.
Notation cell := (nat * ent check_elem)%type.
Notation gone := (removed_check ord cf).
Notation mx := (co_entries (cc_options cf)).
Notation sg := (sig_of ord md5).
Notation F := (flush_interval_in_cycle cf).
Notation step := (cstep ord md5 clk cf).
Notation reach := (creach ord md5 clk cf).
Notation InvC := (Inv ord md5 clk cf).
Implicit Types (c : lru nat) (u : pool check_elem check_request) (l : list cell) (p : cell) (q : check_request) (e : check_elem) (st : check_agg)
  (h : list check_event) (ev : check_event).
Let Hmono := proj1 Hclk.
Let Hpos := proj2 Hclk.

Lemma reach_inv st h : reach st h -> exists o, InvC o st h.
Proof.
  induction 1 as [st Hn|st h call st' res Hr [o IH] Hs].
  - unfold NewCheckAggregator in Hn. destruct (0 <? mx) eqn:Em.
    + apply Z.ltb_lt in Em. destruct (cycles_of_ms _) as [o| | |] eqn:Eo; try done. cbn [obind] in Hn.
      change (OnCacheEntryDelete ord cf) with (passive (delete_with gone)) in Hn.
      destruct (agg_new gone clk true (mx:=mx) (o:=o) (n:=2) eq_refl) as (c & u' & E1 & -> & E2 & E3); [|lia|lia|].
      { intros i ->. by eapply cycles_nonneg. }
      rewrite E1 in Hn. cbn [obind fst snd] in Hn. inversion Hn; subst st. exists o. unfold Inv. cbn [ca_cache ca_pool]. split; [lia|]. split; [done|].
      exists []. split; [done|done|constructor|split; constructor|]. exists [], []. split; [done|]. split; [|done].
      exists (fun _ => []), []. repeat split; try constructor.
    + apply Z.ltb_ge in Em. inversion Hn; subst st. exists None. unfold Inv. cbn [ca_cache]. repeat split; try done; constructor.
  - exists o. unfold Inv in *. destruct (ca_cache st) as [c|] eqn:Ec.
    + destruct IH as (I1 & I2 & l & IH). destruct st as [x u]. cbn in Ec. subst x.
      destruct (chk_step Hclk o call IH Hs) as (c' & l' & E1 & E2). rewrite E1. split; [done|]. split; [done|]. exists l'.
      unfold readings at 2. rewrite E1. exact E2.
    + assert (st' = st /\ cres_flushed res = [] /\ answered_op (CheckEvent call res 0 0 st) = []) as (-> & Hf & Ha).
      { destruct call as [q|q r| |]; cbn [cstep] in Hs.
        - destruct (check_bypass ord md5 clk cf q st (or_intror Ec)) as (s & E1 & E2). rewrite E1 in Hs. inversion Hs; subst. by rewrite answered_not_ok.
        - unfold CacheResponse in Hs. rewrite Ec in Hs. by inversion Hs.
        - unfold Flush in Hs. rewrite Ec in Hs. by inversion Hs.
        - unfold FlushAll in Hs. rewrite Ec in Hs. by inversion Hs. }
      rewrite Ec. destruct IH as (I1 & I2 & I3 & I4). unfold readings. rewrite Ec. split; [done|]. split; [by rewrite flushed_snoc, I2|].
      split; [by rewrite answered_snoc, I3|]. by apply timely_snoc.
Qed.

Lemma cached_in st c l k : ca_cache st = Some c -> ARep clk mx k true c (ca_pool st) l -> forall s, cached st s <-> s ∈ n_key <$> l.*2.
Proof. intros E R s. unfold cached. rewrite E. rewrite <- (ar_cached s R). split; [intros (c' & [= <-] & ?); done|by exists c]. Qed.

(** *** what a check does, in terms of the history *)
Lemma decision st h q st' res : reach st h -> eligible cf q = true -> step (CCheck q) st = Ok (st', res) ->
  (~ cached st' (sg q) /\ cres_status res = SNotFound /\ cres_response res = None) \/
  (cached st' (sg q) /\ exists ev1 ev2 r t0 t,
     most_recent (fun ev => exists r, stores ord md5 (sg q) r ev) h ev1 /\ stores ord md5 (sg q) r ev1 /\
     most_recent (refreshes ord md5 cf (sg q)) h ev2 /\ during clk t0 ev2 /\
     (exists i, (readings st <= i < readings st')%nat /\ t = clk i) /\
     if F <=? t - t0 then cres_status res = SNotFound /\ cres_response res = None else cres_status res = SOk /\ cres_response res = Some r).
Proof.
  intros Hr He Hs. destruct (reach_inv Hr) as [o I]. unfold Inv in I. destruct (ca_cache st) as [c|] eqn:Ec.
  - destruct I as (I1 & I2 & l & IC). destruct st as [x u]. cbn in Ec, IC. subst x. pose proof (ck_rep IC) as R.
    cbn [cstep] in Hs. destruct (run_check ord md5 cf Hclk q R He) as [(Hk & c' & u' & E1 & E2 & E3 & E4)|(p & Hp & Ek & HM)].
    + rewrite E1 in Hs. inversion Hs; subst st' res. left. split; [|done]. intros Hc. apply Hk. by apply (cached_in (CheckAgg (Some c') u') eq_refl E2).
    + destruct (absorb ord md5 cf q (n_val p.2)) as [e1| | |] eqn:Ea; try (by destruct (HM _ Hs)).
      destruct HM as (c' & u' & e2 & E1 & E2 & E3 & E4 & E5 & E6 & E7). rewrite E1 in Hs. inversion Hs; subst st' res. right. 
      set (idle := timeout_of o) in *. set (l1 := fresh_cells idle (clk (l_tick c)) l) in *.
      assert (Hpl : p ∈ l). { pose proof (stale_fresh idle (clk (l_tick c)) l) as SP. rewrite <- SP. apply elem_of_app. by right. }
      split.
      { rewrite (cached_in (CheckAgg (Some c') u') eq_refl E2). rewrite <- Ek.
        assert (Nk1 : NoDup (n_key <$> l1.*2)).
        { pose proof (stale_fresh idle (clk (l_tick c)) l) as SP. pose proof (ar_keys R) as Nk. rewrite <- SP in Nk. rewrite !fmap_app in Nk. by apply NoDup_app in Nk as (_ & _ & ?). }
        rewrite (touch_perm clk true _ _ Nk1 Hp). left. }
      pose proof (ck_good IC) as G. rewrite Forall_forall in G. destruct (G p Hpl) as [(v1 & B1 & B2) (v2 & C1 & C2) _]. rewrite Ek in *.
      exists v1, v2, (ce_response (n_val p.2)), (ce_last (n_val p.2)), (clk (l_tick c + reads idle)%nat).
      repeat (split; [done|]). split.
      { exists (l_tick c + reads idle)%nat. split; [|done]. cbn [readings ca_cache]. rewrite E3. destruct (_ <=? _); lia. }
      destruct (F <=? _); done.
  - destruct (check_bypass ord md5 clk cf q st (or_intror Ec)) as (s & E1 & E2). left. cbn [cstep] in Hs. rewrite E1 in Hs. inversion Hs; subst.
    split; [unfold cached; rewrite Ec; by intros (c & ? & _)|]. cbn.
    unfold Check in E1. unfold eligible in He. apply andb_prop in He as [He1 He2]. rewrite He1 in E1. cbn [negb] in E1. destruct (cr_operation q); [|done]. rewrite Ec in E1. by inversion E1.
Qed.

Lemma answers_latest st h q st' res : reach st h -> step (CCheck q) st = Ok (st', res) ->
  match cres_status res with
  | SOk => eligible cf q = true /\ exists r ev, cres_response res = Some r /\
      most_recent (fun ev => exists r, stores ord md5 (sg q) r ev) h ev /\ stores ord md5 (sg q) r ev
  | _ => cres_response res = None
  end.
Proof.
  intros Hr Hs. destruct (eligible cf q) eqn:He.
  - destruct (decision q Hr He Hs) as [(_ & -> & E)|(_ & v1 & v2 & r & t0 & t & B1 & B2 & _ & _ & _ & D)]; [done|].
    destruct (F <=? t - t0); destruct D as [-> D]; [done|]. split; [done|]. by exists r, v1.
  - destruct (check_bypass ord md5 clk cf q st (or_introl He)) as (s & E1 & E2). cbn [cstep] in Hs. rewrite E1 in Hs. inversion Hs; subst. by destruct s.
Qed.

(** *** order of events *)
Lemma reach_timely st h : reach st h -> timely (readings st) h.
Proof.
  intros Hr. destruct (reach_inv Hr) as [o I]. unfold Inv, readings in *. destruct (ca_cache st) as [c|]; [|by apply I].
  destruct I as (_ & _ & l & IC). apply (ck_time IC).
Qed.
Lemma reach_snoc st h ev : reach st (h ++ [ev]) -> exists st0, reach st0 h /\ step (cv_call ev) st0 = Ok (st, cv_result ev) /\
  ev = CheckEvent (cv_call ev) (cv_result ev) (readings st0) (readings st) st.
Proof.
  intros Hr. remember (h ++ [ev]) as h' eqn:Eh. destruct Hr as [st1 H1|st0 h0 call st1 res H1 H2]; [by destruct h|]. apply app_inj_tail in Eh as [-> <-]. by exists st0.
Qed.
Lemma recent_after P h ev ev1 n t : timely n h -> most_recent P h ev -> P ev1 -> ev1 ∈ h -> during clk t ev -> clk (cv_from ev1) <= t.
Proof.
  intros [T1 T2] (h1 & h2 & -> & H1 & H2) HP Hin (i & Hi & ->). apply Hmono.
  apply elem_of_app in Hin as [Hin|Hin].
  - rewrite Forall_forall in T1. assert (cv_from ev1 <= cv_to ev1)%nat. { apply T1. apply elem_of_app. by left. }
    assert (cv_to ev1 <= cv_from ev)%nat; [|lia].
    clear T1 Hi. induction h1 as [|x h1 IH]; [by apply elem_of_nil in Hin|]. cbn in T2. apply StronglySorted_inv in T2 as [T2 T3].
    apply elem_of_cons in Hin as [->|Hin]; [|auto]. rewrite Forall_forall in T3. apply T3. apply elem_of_app. right. left.
  - apply elem_of_cons in Hin as [->|Hin]; [lia|]. rewrite Forall_forall in H2. by destruct (H2 ev1 Hin).
Qed.

Lemma one_refresh st h ev1 ev2 k : reach st (h ++ [ev2]) -> ev1 ∈ h -> refreshes ord md5 cf k ev1 ->
  asked ord md5 cf k SNotFound ev2 -> cached st k -> exists t, during clk t ev2 /\ F <= t - clk (cv_from ev1).
Proof.
  intros Hr Hin H1 (q & Ec & He & Ek & Es) Hc. destruct (reach_snoc _ _ Hr) as (st0 & R0 & S0 & Eev). rewrite Ec in S0. subst k.
  destruct (decision q R0 He S0) as [(Hn & _)|(_ & v1 & v2 & r & t0 & t & _ & _ & B1 & B2 & (i & Hi & ->) & D)]; [done|].
  exists (clk i). split; [exists i; rewrite Eev; by split|].
  destruct (F <=? clk i - t0) eqn:Ed; [|destruct D as [D _]; congruence]. apply Z.leb_le in Ed.
  pose proof (recent_after (reach_timely R0) B1 H1 Hin B2). lia.
Qed.

(** *** freshness *)
Lemma fresh_when_prompt st h ev ev0 k r : reach st (h ++ [ev]) -> asked ord md5 cf k SOk ev ->
  most_recent (refreshes ord md5 cf k) h ev0 -> stores ord md5 k r ev0 ->
  cres_response (cv_result ev) = Some r /\ exists t0 t, during clk t0 ev0 /\ during clk t ev /\ t - t0 < F.
Proof.
  intros Hr (q & Ec & He & Ek & Es) Hm Hst. destruct (reach_snoc _ _ Hr) as (st0 & R0 & S0 & Eev). rewrite Ec in S0. subst k.
  destruct (decision q R0 He S0) as [(Hn & D & _)|(_ & v1 & v2 & r' & t0 & t & A1 & A2 & B1 & B2 & (i & Hi & ->) & D)]; [congruence|].
  assert (Q : forall P a b, most_recent P h a -> most_recent P h b -> a = b).
  { clear. intros P a b (h1 & h2 & E1 & Pa & Fa) (h3 & h4 & E2 & Pb & Fb). subst h.
    destruct (decide (length h1 = length h3)) as [El|El].
    - apply app_inj_1 in E2 as [_ E2]; [|done]. by inversion E2.
    - assert (length h1 < length h3 \/ length h3 < length h1)%nat as [Hl|Hl] by lia.
      + assert (b ∈ h2); [|rewrite Forall_forall in Fa; by destruct (Fa b)].
        assert (X : (h1 ++ a :: h2) !! length h3 = Some b) by (rewrite E2; apply list_lookup_middle; done).
        rewrite lookup_app_r in X by lia. destruct (length h3 - length h1)%nat eqn:En; [lia|]. cbn in X. by eapply elem_of_list_lookup_2.
      + assert (a ∈ h4); [|rewrite Forall_forall in Fb; by destruct (Fb a)].
        assert (X : (h3 ++ b :: h4) !! length h1 = Some a) by (rewrite <- E2; apply list_lookup_middle; done).
        rewrite lookup_app_r in X by lia. destruct (length h1 - length h3)%nat eqn:En; [lia|]. cbn in X. by eapply elem_of_list_lookup_2. }
  assert (v2 = ev0) as -> by (eapply Q; [exact B1|exact Hm]).
  assert (v1 = ev0) as ->.
  { eapply Q; [exact A1|]. destruct Hm as (h1 & h2 & E1 & Pa & Fa). exists h1, h2. split; [done|]. split; [by exists r|].
    eapply Forall_impl; [exact Fa|]. intros x Hx (r0 & Hx2). apply Hx. right. by exists r0. }
  destruct (F <=? clk i - t0) eqn:Ed; [destruct D; congruence|]. apply Z.leb_gt in Ed. destruct D as [_ D]. split.
  - rewrite D. destruct A2 as (q1 & X1 & _), Hst as (q2 & X2 & _). congruence.
  - exists t0, (clk i). split; [done|]. split; [|lia]. exists i. rewrite Eev. by split.
Qed.

Lemma used_recently st h ev k idle : reach st (h ++ [ev]) -> asked ord md5 cf k SOk ev ->
  cycles_of_ms (co_expiration_ms (cc_options cf)) = Ok (Some idle) ->
  exists ev0 t0, most_recent (mentions ord md5 cf k) h ev0 /\ during clk t0 ev0 /\ clk (cv_from ev) - t0 <= idle.
Proof.
  intros Hr (q & Ec & He & Ek & Es) Ho. destruct (reach_snoc _ _ Hr) as (st0 & R0 & S0 & Eev). rewrite Ec in S0. subst k.
  destruct (reach_inv R0) as [o I]. unfold Inv in I. destruct (ca_cache st0) as [c|] eqn:Ec0.
  2: { destruct (check_bypass ord md5 clk cf q st0 (or_intror Ec0)) as (s & E1 & E2). cbn [cstep] in S0. rewrite E1 in S0. destruct E2. inversion S0 as [[X Y]]. rewrite <- Y in Es. done. }
  destruct I as (I1 & I2 & l & IC). rewrite Ho in I2. inversion I2; subst o. cbn [timeout_of] in IC. destruct st0 as [x u]. cbn in Ec0, IC. subst x. pose proof (ck_rep IC) as R.
  cbn [cstep] in S0. destruct (run_check ord md5 cf Hclk q R He) as [(Hk & c' & u' & E1 & E2 & E3 & E4)|(p & Hp & Ek & HM)].
  { rewrite E1 in S0. inversion S0 as [[X Y]]. rewrite <- Y in Es. done. }
  pose proof (cycles_nonneg _ _ Ho) as Hi. unfold fresh_cells in Hp. apply Z.leb_le in Hi. rewrite Hi in Hp. apply elem_of_list_filter in Hp as [Hp Hpl].
  pose proof (ck_good IC) as G. rewrite Forall_forall in G. destruct (G p Hpl) as [_ _ (v3 & D1 & D2)]. rewrite Ek in *.
  exists v3, (n_last p.2). split; [done|]. split; [done|]. rewrite Eev. cbn [cv_from readings ca_cache]. lia.
Qed.

(** *** accounting *)
Lemma reported_once st h : reach st h ->
  exists st' fl groups extra,
    step CFlushAll st = Ok (st', CheckResult SOk None fl) /\
    Forall2 (reports ord md5 cf) groups (flushed h ++ fl) /\
    concat groups ≡ₚ answered h ++ extra /\ extra ⊆+ sent_by_callers cf h /\
    Forall (fun g => (exists k, Forall (fun o => op_sig ord md5 o = k) g) /\ g `sublist_of` all_checked h) groups /\
    exists st'', step CFlushAll st' = Ok (st'', CheckResult SOk None []).
Proof.
  intros Hr. destruct (reach_inv Hr) as [o I]. unfold Inv in I. destruct (ca_cache st) as [c|] eqn:Ec.
  - destruct I as (I1 & I2 & l & IC). destruct st as [x u]. cbn in Ec, IC. subst x. pose proof IC as [R1 R2 R3 R4 (ops & extra & A1 & A2 & A3)].
    destruct (agg_removeall gone ord (ar_items [] R1)) as (c' & u' & gs & E1 & E0 & E2 & E3 & E4).
    cbn [cstep]. unfold FlushAll. cbn [ca_cache ca_pool]. change (OnCacheEntryDelete ord cf) with (passive (delete_with gone)). rewrite E1. cbn [obind finish fst snd].
    assert (A4 : Acc ord md5 (cc_kinds cf) ce_agg (op_sig ord md5) [] (ops ++ out ord ce_agg gs) (answered h ++ extra) (all_checked h)).
    { eapply acc_remove; [exact A2|]. by rewrite app_nil_r. }
    destruct A4 as (G & fg & B1 & _ & B3 & B4). cbn in B3. rewrite app_nil_r in B3.
    cbn [p_items with_items] in E4. rewrite emit_out in E4. cbn [app] in E4.
    exists (CheckAgg (Some c') (with_items [] u')), (p_items u'), fg, extra. split; [done|]. split.
    { rewrite A1, E4, <- fmap_app. clear -B1. induction B1 as [|g o fg fl H _ IH]; [constructor|]. csimpl. constructor; [|done].
      destruct H as (f & r & -> & H). by exists f, r, o. }
    split; [done|]. split; [done|]. split; [exact B4|].
    destruct (agg_removeall gone ord (ar_items [] E2)) as (c2 & u2 & gs2 & F1 & F0 & F2 & F3 & F4). apply Permutation_nil_r in F0. subst gs2.
    cbn [ca_cache ca_pool]. change (with_items [] (with_items [] u')) with (with_items [] u'). rewrite F1. cbn [obind finish fst snd].
    unfold finish. cbn [fst snd]. rewrite F4. eexists. reflexivity.
  - destruct I as (I1 & I2 & I3 & _). exists st, [], [], []. cbn [cstep]. unfold FlushAll. rewrite Ec. rewrite I2, I3. split; [done|]. split; [constructor|]. split; [done|]. split; [apply submseteq_nil_l|]. split; [constructor|]. by exists st.
Qed.

(** *** no call fails *)
Lemma calls_complete st h call : reach st h ->
  (exists r, step call st = Ok r) \/
  (exists q first rest, call = CCheck q /\ (first :: rest) `sublist_of` all_checked h ++ [op_get (cr_operation q)] /\
     forall x, aggregate ord md5 (cc_kinds cf) first rest <> Ok x).
Proof.
  intros Hr. destruct (reach_inv Hr) as [o I]. unfold Inv in I. destruct (ca_cache st) as [c|] eqn:Ec.
  - destruct I as (I1 & I2 & l & IC). destruct st as [x u]. cbn in Ec, IC. subst x. pose proof IC as [R1 R2 R3 R4 (ops & extra & A1 & A2 & A3)].
    destruct call as [q|q r| |]; cbn [cstep].
    + destruct (eligible cf q) eqn:Eq.
      2: { destruct (check_bypass ord md5 clk cf q (CheckAgg (Some c) u) (or_introl Eq)) as (s & E1 & _). left. by eexists. }
      destruct (run_check ord md5 cf Hclk q R1 Eq) as [(Hk & c' & u' & E1 & _)|(p & Hp & Ek & HM)]; [left; by eexists|].
      assert (Hpl : p ∈ l). { pose proof (stale_fresh (timeout_of o) (clk (l_tick c)) l) as SP. rewrite <- SP. apply elem_of_app. by right. }
      destruct (absorb ord md5 cf q (n_val p.2)) as [e1| | |] eqn:Ea.
      { left. destruct HM as (c' & u' & e2 & E1 & _). by eexists. }
      all: right; destruct A2 as (G & fg & _ & B2 & _ & _); rewrite Forall_forall in B2; destruct (B2 p Hpl) as (D1 & _ & D3);
        pose proof (built_absorb ord md5 (cc_kinds cf) _ _ (op_get (cr_operation q)) D1) as X;
        unfold absorb in Ea; destruct (cs_errors _); try done; unfold Aggregate in Ea; fold (absorb1 ord md5 (cc_kinds cf) (op_get (cr_operation q)) (ce_agg (n_val p.2))) in Ea;
        destruct (absorb1 ord md5 (cc_kinds cf) (op_get (cr_operation q)) (ce_agg (n_val p.2))); try done;
        destruct X as (fst0 & rst0 & E & X); exists q, fst0, rst0; (split; [done|]); (split; [|done]); rewrite <- E; by apply sublist_app.
    + left. destruct (run_cache ord md5 cf Hclk q r R1) as [(Hk & c' & u' & a & E1 & _)|(p & Hp & Ek & c' & u' & e2 & E1 & _)]; by eexists.
    + left. unfold Flush. cbn [ca_cache ca_pool]. change (OnCacheEntryDelete ord cf) with (passive (delete_with gone)).
      destruct (agg_expire gone Hmono Hpos (ar_items [] R1)) as (c' & u' & E1 & _). rewrite E1. by eexists.
    + left. unfold FlushAll. cbn [ca_cache ca_pool]. change (OnCacheEntryDelete ord cf) with (passive (delete_with gone)).
      destruct (agg_removeall gone ord (ar_items [] R1)) as (c' & u' & gs & E1 & _). rewrite E1. by eexists.
  - left. destruct call as [q|q r| |]; cbn [cstep].
    + destruct (check_bypass ord md5 clk cf q st (or_intror Ec)) as (s & E1 & E2). by eexists.
    + unfold CacheResponse. rewrite Ec. by eexists.
    + unfold Flush. rewrite Ec. by eexists.
    + unfold FlushAll. rewrite Ec. by eexists.
Qed.

Lemma destroy_complete st h : reach st h -> DestroyCheckAggregator ord cf st = Ok tt.
Proof.
  intros Hr. destruct (reach_inv Hr) as [o I]. unfold Inv in I. unfold DestroyCheckAggregator, FlushAll. destruct (ca_cache st) as [c|] eqn:Ec.
  - destruct I as (I1 & I2 & l & IC). destruct (agg_removeall gone ord (ar_items [] (ck_rep IC))) as (c' & u' & gs & E1 & E0 & E2 & E3 & E4).
    change (OnCacheEntryDelete ord cf) with (passive (delete_with gone)). rewrite E1. cbn [obind finish fst snd ca_cache]. by apply (ar_destroy E2).
  - cbn [obind fst]. by rewrite Ec.
Qed.

(** *** leaving the cache *)
Lemma leaves st h call st' res k : reach st h -> step call st = Ok (st', res) -> cached st k -> ~ cached st' k ->
  call = CFlushAll \/
  (exists ev t idle, most_recent (mentions ord md5 cf k) h ev /\ during clk t ev /\
     cycles_of_ms (co_expiration_ms (cc_options cf)) = Ok (Some idle) /\ idle < clk (readings st) - t) \/
  (exists q r, call = CCacheResponse q r /\ k <> sg q /\ 
     (exists ks, NoDup ks /\ (forall s, s ∈ ks <-> cached st' s) /\ Z.of_nat (length ks) = mx) /\
     forall k', cached st' k' -> k' <> sg q -> exists ev t ev' t', most_recent (mentions ord md5 cf k) h ev /\ during clk t ev /\
        most_recent (mentions ord md5 cf k') h ev' /\ during clk t' ev' /\ t <= t').
Proof.
  intros Hr Hs Hc Hn. destruct (reach_inv Hr) as [o I]. unfold Inv in I. destruct (ca_cache st) as [c|] eqn:Ec.
  2: { destruct Hc as (c & X & _). congruence. }
  destruct I as (I1 & I2 & l & IC). destruct st as [x u]. cbn in Ec, IC. subst x. pose proof IC as [R1 R2 R3 R4 _].
  apply (cached_in (CheckAgg (Some c) u) eq_refl R1) in Hc. apply elem_of_list_fmap in Hc as (e0 & -> & Hc). apply elem_of_list_fmap in Hc as (p & -> & Hp).
  set (idle := timeout_of o) in *. set (l1 := fresh_cells idle (clk (l_tick c)) l).
  assert (Hexp : p ∉ l1 -> exists ev t idle, most_recent (mentions ord md5 cf (n_key p.2)) h ev /\ during clk t ev /\
     cycles_of_ms (co_expiration_ms (cc_options cf)) = Ok (Some idle) /\ idle < clk (readings (CheckAgg (Some c) u)) - t).
  { intros Hf. unfold l1, fresh_cells in Hf. destruct (0 <=? idle) eqn:Ei; [|done]. 
    rewrite Forall_forall in R3. destruct (R3 p Hp) as [_ _ (v & V1 & V2)]. exists v, (n_last p.2), idle. split; [done|]. split; [done|]. split.
    { rewrite I2. unfold idle in *. destruct o; [done|]. cbn in Ei. done. }
    destruct (decide (clk (l_tick c) - idle <= n_last p.2)); [destruct Hf; by apply elem_of_list_filter|]. cbn [readings ca_cache]. lia. }
  assert (Hl1 : forall c' u', ARep clk mx idle true c' u' l1 -> st' = CheckAgg (Some c') u' -> p ∉ l1).
  { intros c' u' R -> Hf. apply Hn. apply (cached_in (CheckAgg (Some c') u') eq_refl R). apply elem_of_list_fmap. exists p.2. split; [done|]. by apply elem_of_list_fmap_1. }
  pose proof (stale_fresh idle (clk (l_tick c)) l) as SP. fold l1 in SP.
  assert (Nk1 : NoDup (n_key <$> l1.*2)).
  { pose proof (ar_keys R1) as Nk. rewrite <- SP in Nk. rewrite !fmap_app in Nk. by apply NoDup_app in Nk as (_ & _ & ?). }
  assert (Htouch : forall c' u' p0 v n, p0 ∈ l1 -> ARep clk mx idle true c' u' (touch clk true (n_key p0.2) v n l1) -> st' = CheckAgg (Some c') u' -> p ∉ l1).
  { intros c' u' p0 v n Hp0 R -> Hf. apply Hn. apply (cached_in (CheckAgg (Some c') u') eq_refl R). 
    rewrite (touch_perm clk true v n Nk1 Hp0). csimpl. rewrite (cell_split Nk1 Hp0) in Hf. apply elem_of_cons in Hf as [->|Hf]; [left|right].
    apply elem_of_list_fmap. exists p.2. split; [done|]. by apply elem_of_list_fmap_1. }
  destruct call as [q|q r| |]; cbn [cstep] in Hs; [| | |by left].
  - right. left. apply Hexp. destruct (eligible cf q) eqn:Eq.
    2: { destruct (check_bypass ord md5 clk cf q (CheckAgg (Some c) u) (or_introl Eq)) as (s & E1 & _). rewrite E1 in Hs. inversion Hs; subst st'.
         destruct Hn. apply (cached_in (CheckAgg (Some c) u) eq_refl R1). apply elem_of_list_fmap. exists p.2. split; [done|]. by apply elem_of_list_fmap_1. }
    destruct (run_check ord md5 cf Hclk q R1 Eq) as [(Hk & c' & u' & E1 & E2 & _)|(p0 & Hp0 & Ek & HM)].
    + rewrite E1 in Hs. inversion Hs. by eapply Hl1.
    + destruct (absorb ord md5 cf q (n_val p0.2)) as [e1| | |]; try (by destruct (HM _ Hs)). destruct HM as (c' & u' & e2 & E1 & E2 & _).
      rewrite E1 in Hs. inversion Hs. rewrite <- Ek in E2. by eapply Htouch.
  - destruct (run_cache ord md5 cf Hclk q r R1) as [(Hk & c' & u' & a & E1 & E2 & _)|(p0 & Hp0 & Ek & c' & u' & e2 & E1 & E2 & _)].
    + rewrite E1 in Hs. inversion Hs; subst st' res; clear Hs. fold l1 in E2, Hk.
      assert (p ∈ l1 \/ p ∉ l1) as [Hf|Hf]; [|  |right; left; by apply Hexp].
      { destruct (decide (n_key p.2 ∈ n_key <$> l1.*2)) as [X|X].
        - left. apply elem_of_list_fmap in X as (e0 & X1 & X2). apply elem_of_list_fmap in X2 as (p' & -> & X2).
          assert (p = p') as ->; [|done]. eapply (ar_key_inj R1); [done| |done]. rewrite <- SP. apply elem_of_app. by right.
        - right. intros Hf. apply X. apply elem_of_list_fmap. exists p.2. split; [done|]. by apply elem_of_list_fmap_1. } right. right. exists q, r. split; [done|].
      set (stx := CheckAgg (Some c') u') in *. pose proof (cached_in stx eq_refl E2) as HC. csimpl in HC.
      assert (Hd : p ∈ drop (room mx) l1).
      { rewrite <- (take_drop (room mx) l1) in Hf. apply elem_of_app in Hf as [Hf|Hf]; [|done]. destruct Hn. apply HC. right. apply elem_of_list_fmap. exists p.2. split; [done|]. by apply elem_of_list_fmap_1. }
      split. { intros E0. apply Hk. rewrite <- E0. apply elem_of_list_fmap. exists p.2. split; [done|]. by apply elem_of_list_fmap_1. }
      split.
      * exists (sg q :: (n_key <$> (take (room mx) l1).*2)). split; [exact (ar_keys E2)|]. split; [intros s; by rewrite HC|].
        cbn [length]. rewrite !fmap_length, take_length. 
        assert (Hlen : (room mx < length l1)%nat). { apply elem_of_list_lookup in Hd as [i Hi]. apply lookup_lt_Some in Hi. rewrite drop_length in Hi. lia. }
        unfold room in *. lia.
      * intros k' Hk' Hne. apply HC in Hk'. apply elem_of_cons in Hk' as [->|Hk']; [done|]. apply elem_of_list_fmap in Hk' as (e0 & -> & Hk'). apply elem_of_list_fmap in Hk' as (p' & -> & Hp').
        assert (Hp'l : p' ∈ l). { rewrite <- SP. apply elem_of_app. right. rewrite <- (take_drop (room mx) l1). apply elem_of_app. by left. }
        rewrite Forall_forall in R3. destruct (R3 p Hp) as [_ _ (v & V1 & V2)], (R3 p' Hp'l) as [_ _ (v' & V1' & V2')]. exists v, (n_last p.2), v', (n_last p'.2).
        repeat (split; [done|]).
        assert (S1 : StronglySorted (@later check_elem) l1) by (eapply sorted_sub; [apply fresh_sub|apply (ar_sorted R1)]).
        clear -S1 Hp' Hd. rewrite <- (take_drop (room mx) l1) in S1. remember (take (room mx) l1) as a eqn:Ea. clear Ea. induction a as [|x a IH]; [by apply elem_of_nil in Hp'|].
        cbn in S1. apply StronglySorted_inv in S1 as [S1 S2]. apply elem_of_cons in Hp' as [->|Hp']; [|auto]. rewrite Forall_forall in S2. apply (S2 p). apply elem_of_app. by right.
    + rewrite E1 in Hs. inversion Hs. right. left. apply Hexp. rewrite <- Ek in E2. by eapply Htouch.
  - right. left. apply Hexp. unfold Flush in Hs. cbn [ca_cache ca_pool] in Hs. change (OnCacheEntryDelete ord cf) with (passive (delete_with gone)) in Hs.
    destruct (agg_expire gone Hmono Hpos (ar_items [] R1)) as (c' & u' & E1 & E2 & _). rewrite E1 in Hs. inversion Hs. eapply Hl1; [|done]. apply (ar_items []) in E2. exact E2.
Qed.

(** whatever is cached after a call that looks at the cache was used within the expiration time before the call, or by it *)
Lemma stays st h call st' res k idle : reach st h -> step call st = Ok (st', res) -> cached st' k ->
  match call with CCheck q => eligible cf q = true | _ => True end ->
  cycles_of_ms (co_expiration_ms (cc_options cf)) = Ok (Some idle) ->
  (exists q, (call = CCheck q \/ exists r, call = CCacheResponse q r) /\ sg q = k) \/
  exists ev t, most_recent (mentions ord md5 cf k) h ev /\ during clk t ev /\ clk (readings st) - t <= idle.
Proof.
  intros Hr Hs Hc Hcall Ho. destruct (reach_inv Hr) as [o I]. unfold Inv in I. destruct (ca_cache st) as [c|] eqn:Ec.
  2: { destruct Hc as (c' & X & Hc). exfalso. assert (st' = st) as ->; [|congruence].
       destruct call as [q|q r| |]; cbn [cstep] in Hs.
       - destruct (check_bypass ord md5 clk cf q st (or_intror Ec)) as (s & E1 & E2). rewrite E1 in Hs. by inversion Hs.
       - unfold CacheResponse in Hs. rewrite Ec in Hs. by inversion Hs.
       - unfold Flush in Hs. rewrite Ec in Hs. by inversion Hs.
       - unfold FlushAll in Hs. rewrite Ec in Hs. by inversion Hs. }
  destruct I as (I1 & I2 & l & IC). rewrite Ho in I2. inversion I2; subst o. cbn [timeout_of] in IC. destruct st as [x u]. cbn in Ec, IC. subst x. pose proof IC as [R1 R2 R3 R4 _].
  set (l1 := fresh_cells idle (clk (l_tick c)) l). rewrite Forall_forall in R3.
  assert (Hf : forall p, p ∈ l1 -> n_key p.2 = k -> exists ev t, most_recent (mentions ord md5 cf k) h ev /\ during clk t ev /\ clk (readings (CheckAgg (Some c) u)) - t <= idle).
  { intros p Hp <-. unfold l1, fresh_cells in Hp. pose proof (cycles_nonneg _ _ Ho) as Hi. apply Z.leb_le in Hi. rewrite Hi in Hp. apply elem_of_list_filter in Hp as [Hp Hpl].
    destruct (R3 p Hpl) as [_ _ (v & V1 & V2)]. exists v, (n_last p.2). split; [done|]. split; [done|]. cbn [readings ca_cache]. lia. }
  pose proof (stale_fresh idle (clk (l_tick c)) l) as SP. fold l1 in SP.
  assert (Nk1 : NoDup (n_key <$> l1.*2)).
  { pose proof (ar_keys R1) as Nk. rewrite <- SP in Nk. rewrite !fmap_app in Nk. by apply NoDup_app in Nk as (_ & _ & ?). }
  assert (Hin : forall l2 c' u', ARep clk mx idle true c' u' l2 -> st' = CheckAgg (Some c') u' -> exists p, p ∈ l2 /\ n_key p.2 = k).
  { intros l2 c' u' R ->. apply (cached_in (CheckAgg (Some c') u') eq_refl R) in Hc. apply elem_of_list_fmap in Hc as (e0 & -> & Hc). apply elem_of_list_fmap in Hc as (p & -> & Hp). by exists p. }
  assert (Htouch : forall l2 c' u' p0 v n, l2 = touch clk true (n_key p0.2) v n l1 -> p0 ∈ l1 -> ARep clk mx idle true c' u' l2 -> st' = CheckAgg (Some c') u' -> n_key p0.2 = k \/ exists p, p ∈ l1 /\ n_key p.2 = k).
  { intros l2 c' u' p0 v n -> Hp0 R Est. destruct (Hin _ _ _ R Est) as (p & Hp & Ek). apply (touch_in clk true v n Nk1 Hp0) in Hp as [->|[Hp _]]; [by left|]. right. by exists p. }
  destruct call as [q|q r| |]; cbn [cstep] in Hs.
  - destruct (run_check ord md5 cf Hclk q R1 Hcall) as [(Hk & c' & u' & E1 & E2 & _)|(p0 & Hp0 & Ek & HM)].
    + rewrite E1 in Hs. inversion Hs; subst st' res. destruct (Hin _ _ _ E2 eq_refl) as (p & Hp & Ep). right. by eapply Hf.
    + destruct (absorb ord md5 cf q (n_val p0.2)) as [e1| | |]; try (by destruct (HM _ Hs)). destruct HM as (c' & u' & e2 & E1 & E2 & _).
      rewrite E1 in Hs. inversion Hs; subst st' res. rewrite <- Ek in E2. destruct (Htouch _ _ _ _ _ _ eq_refl Hp0 E2 eq_refl) as [E0|(p & Hp & Ep)].
      * left. exists q. split; [by left|]. congruence.
      * right. by eapply Hf.
  - destruct (run_cache ord md5 cf Hclk q r R1) as [(Hk & c' & u' & a & E1 & E2 & _)|(p0 & Hp0 & Ek & c' & u' & e2 & E1 & E2 & _)].
    + rewrite E1 in Hs. inversion Hs; subst st' res; clear Hs. fold l1 in E2. destruct (Hin _ _ _ E2 eq_refl) as (p & Hp & Ep). apply elem_of_cons in Hp as [->|Hp].
      * left. exists q. split; [right; by exists r|done].
      * right. eapply Hf; [|done]. rewrite <- (take_drop (room mx) l1). apply elem_of_app. by left.
    + rewrite E1 in Hs. inversion Hs; subst st' res. rewrite <- Ek in E2. destruct (Htouch _ _ _ _ _ _ eq_refl Hp0 E2 eq_refl) as [E0|(p & Hp & Ep)].
      * left. exists q. split; [right; by exists r|]. congruence.
      * right. by eapply Hf.
  - unfold Flush in Hs. cbn [ca_cache ca_pool] in Hs. change (OnCacheEntryDelete ord cf) with (passive (delete_with gone)) in Hs.
    destruct (agg_expire gone Hmono Hpos (ar_items [] R1)) as (c' & u' & E1 & E2 & _). rewrite E1 in Hs. inversion Hs; subst st' res.
    apply (ar_items []) in E2. destruct (Hin _ _ _ E2 eq_refl) as (p & Hp & Ep). right. by eapply Hf.
  - unfold FlushAll in Hs. cbn [ca_cache ca_pool] in Hs. change (OnCacheEntryDelete ord cf) with (passive (delete_with gone)) in Hs.
    destruct (agg_removeall gone ord (ar_items [] R1)) as (c' & u' & gs & E1 & E0 & E2 & _). rewrite E1 in Hs. inversion Hs; subst st' res.
    apply (ar_items []) in E2. destruct (Hin _ _ _ E2 eq_refl) as (p & Hp & Ep). by apply elem_of_nil in Hp.
Qed.

(** storing an answer caches it; nothing else does *)
Lemma stored_is_cached st h q r st' res : reach st h -> 0 < mx -> step (CCacheResponse q r) st = Ok (st', res) -> cached st' (sg q).
Proof.
  intros Hr Hm Hs. destruct (reach_inv Hr) as [o I]. unfold Inv in I. destruct (ca_cache st) as [c|] eqn:Ec; [|destruct I; lia].
  destruct I as (I1 & I2 & l & IC). destruct st as [x u]. cbn in Ec, IC. subst x. pose proof (ck_rep IC) as R1. cbn [cstep] in Hs.
  destruct (run_cache ord md5 cf Hclk q r R1) as [(Hk & c' & u' & a & E1 & E2 & _)|(p0 & Hp0 & Ek & c' & u' & e2 & E1 & E2 & _)].
  - rewrite E1 in Hs. inversion Hs; subst st' res. apply (cached_in (CheckAgg (Some c') u') eq_refl E2). csimpl. left.
  - rewrite E1 in Hs. inversion Hs; subst st' res. apply (cached_in (CheckAgg (Some c') u') eq_refl E2). rewrite <- Ek.
    set (l1 := fresh_cells _ _ l) in *. pose proof (stale_fresh (timeout_of o) (clk (l_tick c)) l) as SP. fold l1 in SP.
    assert (Nk1 : NoDup (n_key <$> l1.*2)).
    { pose proof (ar_keys R1) as Nk. rewrite <- SP in Nk. rewrite !fmap_app in Nk. by apply NoDup_app in Nk as (_ & _ & ?). }
    rewrite (touch_perm clk true _ _ Nk1 Hp0). csimpl. left.
Qed.
Lemma only_stored st h call st' res k : reach st h -> step call st = Ok (st', res) -> cached st' k -> ~ cached st k ->
  exists q r, call = CCacheResponse q r /\ sg q = k.
Proof.
  intros Hr Hs Hc Hn. destruct (reach_inv Hr) as [o I]. unfold Inv in I. destruct (ca_cache st) as [c|] eqn:Ec.
  2: { destruct Hc as (c' & X & Hc). exfalso. assert (st' = st) as ->; [|congruence].
       destruct call as [q|q r| |]; cbn [cstep] in Hs.
       - destruct (check_bypass ord md5 clk cf q st (or_intror Ec)) as (s & E1 & E2). rewrite E1 in Hs. by inversion Hs.
       - unfold CacheResponse in Hs. rewrite Ec in Hs. by inversion Hs.
       - unfold Flush in Hs. rewrite Ec in Hs. by inversion Hs.
       - unfold FlushAll in Hs. rewrite Ec in Hs. by inversion Hs. }
  destruct I as (I1 & I2 & l & IC). destruct st as [x u]. cbn in Ec, IC. subst x. pose proof (ck_rep IC) as R1.
  set (idle := timeout_of o) in *. set (l1 := fresh_cells idle (clk (l_tick c)) l).
  pose proof (stale_fresh idle (clk (l_tick c)) l) as SP. fold l1 in SP.
  assert (Nk1 : NoDup (n_key <$> l1.*2)).
  { pose proof (ar_keys R1) as Nk. rewrite <- SP in Nk. rewrite !fmap_app in Nk. by apply NoDup_app in Nk as (_ & _ & ?). }
  assert (Hf : k ∉ n_key <$> l1.*2).
  { intros X. apply Hn. apply (cached_in (CheckAgg (Some c) u) eq_refl R1). rewrite <- SP, !fmap_app. apply elem_of_app. by right. }
  assert (Hin : forall l2 c' u', ARep clk mx idle true c' u' l2 -> st' = CheckAgg (Some c') u' -> k ∈ n_key <$> l2.*2).
  { intros l2 c' u' R ->. by apply (cached_in (CheckAgg (Some c') u') eq_refl R). }
  assert (Htouch : forall c' u' p0 v n, p0 ∈ l1 -> ARep clk mx idle true c' u' (touch clk true (n_key p0.2) v n l1) -> st' = CheckAgg (Some c') u' -> False).
  { intros c' u' p0 v n Hp0 R Est. apply Hf. pose proof (Hin _ _ _ R Est) as X. apply elem_of_list_fmap in X as (e0 & -> & X). apply elem_of_list_fmap in X as (p & -> & X).
    apply (touch_in clk true v n Nk1 Hp0) in X as [->|[X _]]; [cbn [snd n_key]|]; apply elem_of_list_fmap; [exists p0.2|exists p.2]; split; try done; by apply elem_of_list_fmap_1. }
  destruct call as [q|q r| |]; cbn [cstep] in Hs.
  - exfalso. destruct (eligible cf q) eqn:Eq.
    2: { destruct (check_bypass ord md5 clk cf q (CheckAgg (Some c) u) (or_introl Eq)) as (s & E1 & _). rewrite E1 in Hs. inversion Hs; subst st'. done. }
    destruct (run_check ord md5 cf Hclk q R1 Eq) as [(Hk & c' & u' & E1 & E2 & _)|(p0 & Hp0 & Ek & HM)].
    + rewrite E1 in Hs. inversion Hs. apply Hf. by eapply Hin.
    + destruct (absorb ord md5 cf q (n_val p0.2)) as [e1| | |]; try (by destruct (HM _ Hs)). destruct HM as (c' & u' & e2 & E1 & E2 & _).
      rewrite E1 in Hs. inversion Hs. rewrite <- Ek in E2. by eapply Htouch.
  - destruct (run_cache ord md5 cf Hclk q r R1) as [(Hk & c' & u' & a & E1 & E2 & _)|(p0 & Hp0 & Ek & c' & u' & e2 & E1 & E2 & _)].
    + rewrite E1 in Hs. inversion Hs; subst st' res. fold idle l1 in E2. pose proof (Hin _ _ _ E2 eq_refl) as X. csimpl in X. apply elem_of_cons in X as [->|X]; [by exists q, r|].
      destruct Hf. rewrite <- (take_drop (room mx) l1), !fmap_app. apply elem_of_app. by left.
    + rewrite E1 in Hs. inversion Hs. exfalso. rewrite <- Ek in E2. by eapply Htouch.
  - exfalso. unfold Flush in Hs. cbn [ca_cache ca_pool] in Hs. change (OnCacheEntryDelete ord cf) with (passive (delete_with gone)) in Hs.
    destruct (agg_expire gone Hmono Hpos (ar_items [] R1)) as (c' & u' & E1 & E2 & _). rewrite E1 in Hs. inversion Hs. apply Hf. eapply Hin; [|done]. apply (ar_items []) in E2. exact E2.
  - exfalso. unfold FlushAll in Hs. cbn [ca_cache ca_pool] in Hs. change (OnCacheEntryDelete ord cf) with (passive (delete_with gone)) in Hs.
    destruct (agg_removeall gone ord (ar_items [] R1)) as (c' & u' & gs & E1 & E0 & E2 & _). rewrite E1 in Hs. inversion Hs; subst st' res.
    apply (ar_items []) in E2. pose proof (Hin _ _ _ E2 eq_refl) as X. csimpl in X. by apply elem_of_nil in X.
Qed.
Lemma at_most st h : reach st h -> exists ks, NoDup ks /\ (forall s, s ∈ ks <-> cached st s) /\ Z.of_nat (length ks) <= Z.max 0 mx.
Proof.
  intros Hr. destruct (reach_inv Hr) as [o I]. unfold Inv in I. destruct (ca_cache st) as [c|] eqn:Ec.
  - destruct I as (I1 & I2 & l & IC). pose proof (ck_rep IC) as R. exists (n_key <$> l.*2). split; [apply (ar_keys R)|]. split; [intros s; by rewrite (cached_in st Ec R)|].
    rewrite !fmap_length. pose proof (ar_len R). lia.
  - exists []. split; [constructor|]. split; [|cbn; lia]. intros s. split; [by intros ?%elem_of_nil|]. intros (c & X & _). congruence.
Qed.
(** a bypassed check *)
Lemma bypass q st : eligible cf q = false \/ ca_cache st = None ->
  step (CCheck q) st = Ok (st, CheckResult
    (if negb (String.eqb (cr_service q) (cc_service cf)) || negb (bool_decide (is_Some (cr_operation q))) then SInvalidArgument else SNotFound) None []).
Proof.
  unfold eligible. cbn [cstep]. unfold Check. destruct (String.eqb _ _); cbn [negb andb orb]; [|done].
  destruct (cr_operation q) as [op|] eqn:Eo; cbn; [|done]. destruct (ca_cache st) eqn:Ec; [|done]. intros [->|?]; done.
Qed.
Lemma disabled st h : reach st h -> mx <= 0 -> ca_cache st = None.
Proof. intros Hr Hm. destruct (reach_inv Hr) as [o I]. unfold Inv in I. destruct (ca_cache st); [destruct I; lia|done]. Qed.
End claims.


(** *** checks that bypass the cache *)
Lemma check_malformed ord md5 clk cf q st : cr_service q <> cc_service cf \/ cr_operation q = None ->
  cstep ord md5 clk cf (CCheck q) st = Ok (st, CheckResult SInvalidArgument None []).
Proof.
  intros H. cbn [cstep]. unfold Check. destruct (String.eqb_spec (cr_service q) (cc_service cf)) as [E|E]; cbn [negb]; [|done].
  destruct H as [H|H]; [done|]. by rewrite H.
Qed.
Lemma check_important ord md5 clk cf q o st : cr_service q = cc_service cf -> cr_operation q = Some o -> op_importance o <> LOW ->
  cstep ord md5 clk cf (CCheck q) st = Ok (st, CheckResult SNotFound None []).
Proof.
  intros E1 E2 E3. cbn [cstep]. unfold Check. rewrite E1, String.eqb_refl. cbn [negb]. rewrite E2. destruct (ca_cache st); [|done].
  apply Z.eqb_neq in E3. by rewrite E3.
Qed.
Lemma check_disabled ord md5 clk cf : proper_clock clk -> forall st h q o, creach ord md5 clk cf st h ->
  co_entries (cc_options cf) <= 0 -> cr_service q = cc_service cf -> cr_operation q = Some o ->
  cstep ord md5 clk cf (CCheck q) st = Ok (st, CheckResult SNotFound None []) /\ flushed h = [].
Proof.
  intros Hc st h q o Hr Hm E1 E2. split.
  - pose proof (disabled Hc Hr Hm) as D. cbn [cstep]. unfold Check. rewrite E1, String.eqb_refl. cbn [negb]. by rewrite E2, D.
  - clear q o E1 E2. induction Hr as [|st h call st' res Hr IH Hs]; [done|]. pose proof (disabled Hc Hr Hm) as D.
    unfold flushed in *. rewrite bind_app, IH. cbn [app mbind list_bind cv_result]. rewrite app_nil_r.
    destruct call as [q|q r| |]; cbn [cstep] in Hs; unfold CacheResponse, Flush, FlushAll in Hs; rewrite ?D in Hs; try by inversion Hs.
    destruct (check_bypass ord md5 clk cf q st (or_intror D)) as (s & E1 & _). rewrite E1 in Hs. by inversion Hs.
Qed.
Lemma flush_interval_exact cf : int32_min <= co_flush_ms (cc_options cf) <= int32_max ->
  flush_interval_in_cycle cf = 1000 * co_flush_ms (cc_options cf).
Proof.
  intros _. unfold flush_interval_in_cycle, Frequency. replace (co_flush_ms (cc_options cf) * 1000000) with (1000 * co_flush_ms (cc_options cf) * 1000) by lia.
  by rewrite Z.quot_mul.
Qed.
Lemma new_complete ord md5 clk cf : proper_clock clk -> int32_min <= co_expiration_ms (cc_options cf) <= int32_max ->
  exists st, creach ord md5 clk cf st [].
Proof.
  intros [Hm Hp] Hi. assert (exists o, cycles_of_ms (co_expiration_ms (cc_options cf)) = Ok o) as [o Eo].
  { destruct (Z.le_gt_cases 0 (co_expiration_ms (cc_options cf))) as [H|H].
    - destruct (timeout_accurate _ (conj H (proj2 Hi))) as (n & E & _). eauto.
    - eexists. exact (seconds_negative _ (proj1 Hi) H). }
  unfold NewCheckAggregator. destruct (0 <? co_entries (cc_options cf)) eqn:Em.
  - apply Z.ltb_lt in Em.
    destruct (agg_new (removed_check ord cf) clk true (mx:=co_entries (cc_options cf)) (o:=o) (n:=2) eq_refl) as (c & u' & E1 & -> & E2 & E3); [|lia|lia|].
    { intros i ->. by eapply cycles_nonneg. }
    eexists. constructor. unfold NewCheckAggregator. apply Z.ltb_lt in Em. rewrite Em, Eo. cbn [obind].
    change (OnCacheEntryDelete ord cf) with (passive (delete_with (removed_check ord cf))). rewrite E1. cbn [obind fst snd]. reflexivity.
  - eexists. constructor. unfold NewCheckAggregator. by rewrite Em.
Qed.
