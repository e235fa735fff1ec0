(** The report aggregator's properties, derived from the invariant. *)
From Verif Require Import Base Proto Signature OpAgg OpAggSpec OpAggProofs Lru LruSim LruOps LruOps2 LruSpec Timeout TimeoutProofs TimeoutSign Agg AggCache OpGroups ReportAgg ReportAggSpec ReportAggProofs ReportAggInv ReportAggStep.
From stdpp Require Import gmap list.
Local Open Scope Z_scope.
Set Implicit Arguments.

Section claims.
Variable ord : hash_order.
Variable md5 : string -> string.
Variable clk : nat -> Z.
Variable cf : report_config.
Hypothesis Hclk : proper_clock clk.
Notation cell := (nat * ent opagg)%type.
Notation top := (Z * operation)%type.
Notation gone := (removed_report ord cf).
Notation mx := (ro_entries (rc_options cf)).
Notation sg := (rsig ord md5).
Notation kinds := (rc_kinds cf).
Notation RA := (RAcc ord md5 kinds).
Notation step := (rstep ord md5 clk cf).
Notation reach := (rreach ord md5 clk cf).
Implicit Types (c : lru nat) (u : pool opagg report_request) (l : list cell) (p : cell) (st : report_agg) (T tl : list top)
  (G : nat -> list top) (fg : list (string * list top)) (h : list report_event) (ev : report_event).
Let Hmono := proj1 Hclk.
Let Hpos := proj2 Hclk.

Lemma bypass q st : rr_service q <> rc_service cf \/ HasHighImportantOperation (rr_operations q) = true \/ ra_cache st = None ->
  step (RReport q) st = Ok (st, ReportResult (if decide (rr_service q = rc_service cf) then SNotFound else SInvalidArgument) []).
Proof.
  cbn [rstep]. unfold Report. destruct (String.eqb_spec (rr_service q) (rc_service cf)) as [E|E]; cbn [negb].
  - rewrite decide_True by done. intros [H|[->| ->]]; [done|done|]. by destruct (HasHighImportantOperation _).
  - intros _. by rewrite decide_False.
Qed.
Lemma important ops : HasHighImportantOperation ops = true <-> Exists (fun o => op_importance o <> LOW) ops.
Proof.
  induction ops as [|o ops IH]; [split; [done|intros H; inversion H]|]. cbn [HasHighImportantOperation]. rewrite Exists_cons.
  destruct (Z.eqb_spec (op_importance o) LOW) as [E|E]; cbn [negb]; [rewrite IH; tauto|tauto].
Qed.

Definition after idle call c st' (T : list top) G fg (l' : list cell) c' (h : list report_event) (res : report_result) G' ng tl : Prop :=
  let ev := ReportEvent call res (l_tick c) (l_tick c') st' in
  ra_cache st' = Some c' /\ ARep clk mx idle false c' (ra_pool st') l' /\ packed cf (rres_flushed res) /\
  RA G' (fg ++ ng) l' (T ++ tl) (ops_of (rflushed h) ++ ops_of (rres_flushed res)) /\ tl.*2 = accepted_ops ev /\ (l_tick c <= l_tick c')%nat /\
  Forall (tagged clk idle (l_tick c) (l_tick c')) tl /\
  (looks ev -> 0 <= idle -> Forall (fun p => clk (l_tick c) - idle <= n_last p.2) l') /\
  (call <> RFlushAll -> fits ord md5 cf (T ++ tl) -> Forall (due clk idle (l_tick c) (l_tick c')) ng.*2) /\
  (call = RFlushAll -> l' = []).

Lemma step_ok idle c u l G fg T h call : ARep clk mx idle false c u l -> RA G fg l T (ops_of (rflushed h)) -> let st := ReportAgg (Some c) u in
  (exists st' res c' l' G' ng tl, step call st = Ok (st', res) /\ after idle call c st' T G fg l' c' h res G' ng tl) \/
  ((forall r, step call st <> Ok r) /\ exists q first rest, call = RReport q /\ (first :: rest) `sublist_of` T.*2 ++ rr_operations q /\ forall x, aggregate ord md5 kinds first rest <> Ok x).
Proof.
  intros R A st. assert (P0 : packed cf []) by by left.
  destruct call as [q| |].
  - destruct (decide (rr_service q <> rc_service cf \/ HasHighImportantOperation (rr_operations q) = true)) as [Hb|Hb].
    + left. exists st. eexists _, c, l, G, [], []. split; [apply bypass; destruct Hb; auto|]. unfold after. cbn [rres_flushed ra_cache ra_pool fst snd]. rewrite !app_nil_r.
      do 4 (split; [done|]). split; [by destruct (decide _)|]. split; [done|]. split; [constructor|]. split.
      * unfold looks. cbn. destruct (decide _); by intros [? _].
      * split; [constructor|done].
    + cbn [rstep]. unfold Report, st. cbn [ra_cache ra_pool]. destruct (String.eqb_spec (rr_service q) (rc_service cf)) as [Es|Es]; [|destruct Hb; by left].
      cbn [negb]. destruct (HasHighImportantOperation (rr_operations q)) eqn:Eh; [destruct Hb; by right|].
      pose proof (ar_items [] R) as R0. assert (A0 : RA G fg l T (ops_of (rflushed h) ++ ops_of (p_items (with_items [] u)))) by (cbn; by rewrite app_nil_r).
      destruct (all_steps Hclk (rr_operations q) (ops_of (rflushed h)) R0 P0 A0) as [(c' & u' & l' & G' & ng & tl & E & Et & R1 & P1 & A1 & L1 & T1 & F1 & D1)|[E1 (f0 & r0 & S1 & S2)]].
      * left. rewrite E. cbn [obind finish fst snd]. eexists _, _, c', l', G', ng, tl. split; [reflexivity|]. unfold after. cbn [rres_flushed ra_cache ra_pool fst snd].
        split; [done|]. split; [apply (ar_items []) in R1; exact R1|]. split; [done|]. split; [done|]. split; [done|]. split; [done|]. split; [done|]. split.
        -- intros [_ Hl] Hi. apply F1; [done|lia|]. intros X. by rewrite X in Hl.
        -- split; [auto|done].
      * right. split.
        -- intros r X. destruct (ofold _ _ _) as [w| | |] eqn:E; try done. by destruct (E1 w).
        -- by exists q, f0, r0.
  - left. cbn [rstep]. unfold Flush, st. cbn [ra_cache ra_pool]. change (OnCacheEntryDelete ord cf) with (passive (delete_with gone)).
    destruct (agg_expire gone Hmono Hpos (ar_items [] R)) as (c' & u' & E1 & E2 & E3 & E4). rewrite E1. cbn [obind finish fst snd]. cbn [p_items with_items] in E4.
    eexists _, _, c', _, G, _, []. split; [reflexivity|]. unfold after. cbn [rres_flushed ra_cache ra_pool fst snd]. destruct (packed_emit ord (stale_cells idle (clk (l_tick c)) l) P0) as [P1 P2].
    split; [done|]. split; [apply (ar_items []) in E2; exact E2|]. rewrite E4, P2, (app_nil_r T). split; [done|]. split.
    { cbn [app]. eapply racc_remove; [exact A|apply (ar_keys R)|]. symmetry. apply stale_fresh. }
    split; [done|]. rewrite E3. split; [lia|]. split; [constructor|]. split.
    { intros _ Hi. unfold fresh_cells. rewrite (proj2 (Z.leb_le 0 idle) Hi). apply Forall_forall. intros p Hp. by apply elem_of_list_filter in Hp as [? _]. }
    split; [|done]. intros _ _. exact (stale_due cf R A).
  - left. cbn [rstep]. unfold FlushAll, st. cbn [ra_cache ra_pool]. change (OnCacheEntryDelete ord cf) with (passive (delete_with gone)).
    destruct (agg_removeall gone ord (ar_items [] R)) as (c' & u' & gs & E1 & E0 & E2 & E3 & E4). rewrite E1. cbn [obind finish fst snd]. cbn [p_items with_items] in E4.
    eexists _, _, c', [], G, _, []. split; [reflexivity|]. unfold after. cbn [rres_flushed ra_cache ra_pool fst snd]. destruct (packed_emit ord gs P0) as [P1 P2].
    split; [done|]. split; [apply (ar_items []) in E2; exact E2|]. rewrite E4, P2, (app_nil_r T). split; [done|]. split.
    { cbn [app]. eapply racc_remove; [exact A|apply (ar_keys R)|]. by rewrite app_nil_r. }
    split; [done|]. rewrite E3. split; [lia|]. split; [constructor|]. split; [constructor|]. split; [by intros X|done].
Qed.

Definition evtag idle ev (tl : list top) : Prop := tl.*2 = accepted_ops ev /\ Forall (tagged clk idle (rv_from ev) (rv_to ev)) tl.
Definition Live (tm : option Z) c u h G fg l TL : Prop :=
  1 <= mx /\ cycles_of_ms (ro_flush_ms (rc_options cf)) = Ok tm /\
  ARep clk mx (timeout_of tm) false c u l /\ RA G fg l (concat TL) (ops_of (rflushed h)) /\ Forall2 (evtag (timeout_of tm)) h TL.
Definition Inv st h : Prop :=
  Forall (fun ev => packed cf (rres_flushed (rv_result ev))) h /\
  match ra_cache st with
  | Some c => exists o G fg l TL, Live o c (ra_pool st) h G fg l TL
  | None => mx <= 0 /\ accepted h = [] /\ rflushed h = []
  end.

Lemma accepted_snoc h ev : accepted (h ++ [ev]) = accepted h ++ accepted_ops ev.
Proof. unfold accepted. rewrite bind_app. cbn. by rewrite app_nil_r. Qed.
Lemma flushed_snoc h ev : rflushed (h ++ [ev]) = rflushed h ++ rres_flushed (rv_result ev).
Proof. unfold rflushed. rewrite bind_app. cbn. by rewrite app_nil_r. Qed.

Lemma off_step call st : ra_cache st = None -> exists res, step call st = Ok (st, res) /\ rres_flushed res = [] /\ (forall n m st', accepted_ops (ReportEvent call res n m st') = []).
Proof.
  intros E. destruct call as [q| |].
  - rewrite bypass by auto. eexists. split; [done|]. split; [done|]. intros n m st'. unfold accepted_ops. cbn. by destruct (decide _).
  - cbn [rstep]. unfold Flush. rewrite E. by eexists.
  - cbn [rstep]. unfold FlushAll. rewrite E. by eexists.
Qed.

Lemma live_step o c u h G fg l TL call st' res : Live o c u h G fg l TL -> step call (ReportAgg (Some c) u) = Ok (st', res) ->
  exists c' l' G' ng tl, after (timeout_of o) call c st' (concat TL) G fg l' c' h res G' ng tl /\
    Live o c' (ra_pool st') (h ++ [ReportEvent call res (l_tick c) (l_tick c') st']) G' (fg ++ ng) l' (TL ++ [tl]).
Proof.
  intros (I1 & I2 & R & A & F) Hs. destruct (step_ok h call R A) as [(st1 & res1 & c' & l' & G' & ng & tl & E & HA)|[N _]]; [|by destruct (N _ Hs)].
  rewrite E in Hs. inversion Hs; subst st1 res1. exists c', l', G', ng, tl. split; [done|]. destruct HA as (H1 & H2 & H3 & H4 & H5 & H6 & H7 & _).
  split; [done|]. split; [done|]. split; [done|]. split.
  - rewrite flushed_snoc, ops_app, concat_app. cbn [concat]. rewrite app_nil_r. exact H4.
  - apply Forall2_app; [done|]. constructor; [|done]. by split.
Qed.

Lemma reach_inv st h : reach st h -> Inv st h.
Proof.
  induction 1 as [st Hn|st h call st' res Hr IH Hs].
  - split; [constructor|]. unfold NewReportAggregator in Hn. destruct (0 <? mx) eqn:Em.
    + apply Z.ltb_lt in Em. destruct (cycles_of_ms _) as [o| | |] eqn:Eo; try done. cbn [obind] in Hn.
      change (OnCacheEntryDelete ord cf) with (passive (delete_with gone)) in Hn.
      destruct (agg_new gone clk false (mx:=mx) (o:=o) (n:=2) eq_refl) as (c & u' & E1 & -> & E2 & E3); [|lia|lia|].
      { intros i ->. by eapply cycles_nonneg. }
      rewrite E1 in Hn. cbn [obind fst snd] in Hn. inversion Hn; subst st. cbn [ra_cache ra_pool]. exists o, (fun _ => []), [], [], []. split; [lia|]. split; [done|]. split; [done|].
      split; [|constructor]. split; try constructor.
    + apply Z.ltb_ge in Em. inversion Hn; subst st. cbn [ra_cache]. done.
  - destruct IH as [IP IH]. unfold Inv. destruct (ra_cache st) as [c|] eqn:Ec.
    + destruct IH as (o & G & fg & l & TL & L). destruct st as [x u]. cbn in Ec. subst x.
      destruct (live_step call L Hs) as (c' & l' & G' & ng & tl & HA & HL). assert (E1 := proj1 HA). rewrite E1. unfold rreadings. rewrite E1. cbn [ra_cache]. split.
      * apply Forall_app. split; [done|]. constructor; [|constructor]. apply HA.
      * by eexists _, _, _, _, _.
    + destruct (off_step call _ Ec) as (res' & E1 & E2 & E3). rewrite E1 in Hs. inversion Hs; subst st' res'. rewrite Ec. split.
      * apply Forall_app. split; [done|]. constructor; [|constructor]. cbn. rewrite E2. by left.
      * destruct IH as (I1 & I2 & I3). split; [done|]. rewrite accepted_snoc, flushed_snoc, I2, I3, E3. cbn [rv_result]. by rewrite E2.
Qed.

Lemma reach_snoc st h ev : reach st (h ++ [ev]) -> exists st0, reach st0 h /\ step (rv_call ev) st0 = Ok (st, rv_result ev) /\
  rv_from ev = rreadings st0 /\ rv_to ev = rreadings st /\ rv_after ev = st.
Proof.
  intros H. remember (h ++ [ev]) as hh eqn:E. destruct H as [st Hn|st0 h0 call st' res Hr Hs]; [by destruct h|].
  apply app_inj_tail in E as [-> <-]. by exists st0.
Qed.

Lemma live_accepted o c u h G fg l TL : Live o c u h G fg l TL -> (concat TL).*2 = accepted h.
Proof.
  intros (_ & _ & _ & _ & F). unfold accepted. induction F as [|ev tl h TL [E _] F IH]; [done|]. csimpl. by rewrite fmap_app, IH, E.
Qed.

Definition parts fg : list (list operation) := (fun g => g.2.*2) <$> fg.
Lemma merged_groups fg fl : Forall2 (fun g o => merged ord md5 kinds g.2.*2 o) fg fl -> Forall2 (merges ord md5 cf) (parts fg) fl.
Proof. induction 1; constructor; done. Qed.

(** The flushed operations and those a FlushAll now would flush, in groups. *)
Lemma books st h : reach st h -> exists sent pg st' fl,
  step RFlushAll st = Ok (st', ReportResult SOk fl) /\
  Forall2 (merges ord md5 cf) sent (ops_of (rflushed h)) /\ Forall2 (merges ord md5 cf) pg (ops_of fl) /\
  split_into ord md5 (accepted h) (sent ++ pg) /\ Forall capped sent /\ Forall settled pg /\
  Z.of_nat (length pg) <= Z.max 0 mx /\
  (forall call st2 res2, step call st' = Ok (st2, res2) -> call = RFlush \/ call = RFlushAll -> rres_flushed res2 = []).
Proof.
  intros Hr. destruct (reach_inv Hr) as [_ I]. destruct (ra_cache st) as [c|] eqn:Ec.
  - destruct I as (o & G & fg & l & TL & L). destruct st as [x u]. cbn in Ec. subst x. cbn [ra_pool] in L. pose proof (live_accepted L) as HT. pose proof L as (I1 & I2 & R & A & F).
    cbn [rstep]. unfold FlushAll. cbn [ra_cache ra_pool]. change (OnCacheEntryDelete ord cf) with (passive (delete_with gone)).
    destruct (agg_removeall gone ord (ar_items [] R)) as (c' & u' & gs & E1 & E0 & E2 & E3 & E4). rewrite E1. cbn [obind finish fst snd]. cbn [p_items with_items] in E4.
    destruct (packed_emit ord gs (or_introl eq_refl : packed cf [])) as [P1 P2].
    assert (A1 : RA G (fg ++ take_groups G gs) [] (concat TL) (ops_of (rflushed h) ++ ((fun p : cell => ToOperationProto ord (n_val p.2)) <$> gs))).
    { eapply racc_remove; [exact A|apply (ar_keys R)|]. by rewrite app_nil_r. }
    exists (parts fg), (parts (take_groups G gs)). eexists _, _. split; [reflexivity|]. cbn [fst snd]. rewrite E4, P2. cbn [app ops_of mbind list_bind].
    pose proof (ra_fl A) as H1. pose proof (ra_fl A1) as H2. split; [by apply merged_groups|]. split.
    { apply Forall2_app_inv_l in H2 as (f1 & f2 & K1 & K2 & K3). apply Forall2_length in H1, K1. apply merged_groups. 
      apply app_inj_1 in K3 as [_ <-]; [done|lia]. }
    split. { pose proof (split_view A1) as S. cbn [take_groups fmap list_fmap] in S. rewrite app_nil_r, HT in S. unfold parts. by rewrite <- fmap_app. }
    split. { apply Forall_fmap. eapply Forall_impl; [exact (ra_fg A)|]. by intros g [_ ?]. }
    split. { apply Forall_fmap, Forall_fmap. rewrite E0. eapply Forall_impl; [exact (ra_cells A)|]. by intros p [_ _ _ ?]. }
    split. { unfold parts, take_groups. rewrite !fmap_length. rewrite E0. pose proof (ar_len R). lia. }
    intros call st2 res2 Hs Hc. set (st1 := ReportAgg (Some c') (with_items [] u')) in *. apply (ar_items []) in E2.
    destruct Hc as [->| ->]; cbn [rstep] in Hs; unfold Flush, FlushAll in Hs; cbn [st1 ra_cache ra_pool] in Hs; change (OnCacheEntryDelete ord cf) with (passive (delete_with gone)) in Hs.
    + destruct (agg_expire gone Hmono Hpos (ar_items [] E2)) as (c2 & u2 & X1 & X2 & X3 & X4). rewrite X1 in Hs. cbn [obind finish fst snd] in Hs. inversion Hs. cbn [rres_flushed].
      rewrite X4. unfold stale_cells. by destruct (0 <=? timeout_of o).
    + destruct (agg_removeall gone ord (ar_items [] E2)) as (c2 & u2 & gs2 & X1 & X0 & X2 & X3 & X4). rewrite X1 in Hs. cbn [obind finish fst snd] in Hs. inversion Hs. cbn [rres_flushed].
      rewrite X4. apply Permutation_nil_r in X0 as ->. done.
  - destruct I as (I1 & I2 & I3). exists [], [], st, []. rewrite I2, I3. cbn [rstep]. unfold FlushAll. rewrite Ec. split; [done|]. split; [constructor|]. split; [constructor|].
    split; [split; [constructor|done]|]. split; [constructor|]. split; [constructor|]. split; [cbn; lia|].
    intros call st2 res2 Hs [->| ->]; cbn [rstep] in Hs; unfold Flush, FlushAll in Hs; rewrite Ec in Hs; by inversion Hs.
Qed.

Lemma flushed_exactly_once st h : reach st h -> exists st' qs gs, step RFlushAll st = Ok (st', ReportResult SOk qs) /\
    Forall2 (merges ord md5 cf) gs (ops_of (rflushed h ++ qs)) /\ split_into ord md5 (accepted h) gs /\
    (forall call st2 res, call = RFlush \/ call = RFlushAll -> step call st' = Ok (st2, res) -> rres_flushed res = []).
Proof.
  intros Hr. destruct (books Hr) as (sent & pg & st' & fl & E & H1 & H2 & H3 & H4 & H5 & H6 & H7). exists st', fl, (sent ++ pg). split; [done|].
  split; [rewrite ops_app; by apply Forall2_app|]. split; [done|]. eauto.
Qed.
Lemma split_perm ops gs : split_into ord md5 ops gs -> Forall (fun g => g <> []) gs -> concat gs ≡ₚ ops.
Proof.
  intros [H1 H2] Hn. apply (perm_by_key sg). intros k. specialize (H2 k). unfold with_sig in H2. rewrite <- H2. clear H2. unfold group_sig.
  induction H1 as [|g gs [k0 Hg] _ IH]; [done|]. apply Forall_cons in Hn as [Hn0 Hn]. csimpl. rewrite filter_app, (IH Hn), filter_cons. 
  destruct (decide (k0 = k)) as [->|Hk].
  - rewrite decide_True; [csimpl; f_equiv|].
    + clear -Hg. induction Hg as [|x g Hx _ IHg]; [done|]. rewrite filter_cons_True by done. by rewrite IHg.
    + destruct g as [|x g]; [done|]. left. by apply Forall_inv in Hg.
  - rewrite decide_False.
    + assert (filter (fun o => sg o = k) g = []) as ->; [|done]. clear -Hg Hk. induction Hg as [|x g Hx _ IHg]; [done|]. rewrite filter_cons_False; [done|congruence].
    + intros X. apply Exists_exists in X as (x & Hx & E). rewrite Forall_forall in Hg. specialize (Hg x Hx). congruence.
Qed.
Lemma merges_nonempty gs fl : Forall2 (merges ord md5 cf) gs fl -> Forall (fun g => g <> []) gs.
Proof. induction 1 as [|g o gs fl (f & r & E & _) _ IH]; constructor; [by rewrite E|done]. Qed.
Lemma never_twice st h : reach st h -> exists gs pending, Forall2 (merges ord md5 cf) gs (ops_of (rflushed h)) /\ split_into ord md5 (accepted h) (gs ++ pending) /\
  concat gs ++ concat pending ≡ₚ accepted h.
Proof.
  intros Hr. destruct (books Hr) as (sent & pg & st' & fl & E & H1 & H2 & H3 & H4 & H5 & H6 & H7). exists sent, pg. split; [done|]. split; [done|].
  rewrite <- concat_app. apply split_perm; [done|]. apply Forall_app. split; by eapply merges_nonempty.
Qed.
Lemma logs_bounded st h : reach st h -> exists gs pending st' qs, step RFlushAll st = Ok (st', ReportResult SOk qs) /\
    Forall2 (merges ord md5 cf) gs (ops_of (rflushed h)) /\ Forall2 (merges ord md5 cf) pending (ops_of qs) /\
    split_into ord md5 (accepted h) (gs ++ pending) /\ Z.of_nat (length pending) <= Z.max 0 mx /\
    Forall (fun g => (length g <= 1)%nat \/ (logs_in g < 100)%nat) pending /\
    Forall (fun g => (length g <= 2)%nat \/ (logs_in (removelast g) < 100)%nat) gs.
Proof.
  intros Hr. destruct (books Hr) as (sent & pg & st' & fl & E & H1 & H2 & H3 & H4 & H5 & H6 & H7). exists sent, pg, st', fl. done.
Qed.
Lemma merges_logs g o : merges ord md5 cf g o -> length (op_logs o) = logs_in g.
Proof.
  intros (f & r & -> & E). rewrite (logs_concat ord md5 kinds f r o E). generalize (f :: r) as g. unfold logs_in. induction g as [|x g IH]; [done|]. csimpl. by rewrite app_length, IH.
Qed.
Lemma logs_le g n : Forall (fun o => (length (op_logs o) <= n)%nat) g -> (logs_in g <= length g * n)%nat.
Proof. unfold logs_in. induction 1 as [|x g Hx _ IH]; [done|]. csimpl. lia. Qed.
Lemma flushed_logs st h n : reach st h -> Forall (fun o => (length (op_logs o) <= n)%nat) (accepted h) ->
  Forall (fun o => (length (op_logs o) < 100 + n \/ length (op_logs o) <= 2 * n)%nat) (ops_of (rflushed h)).
Proof.
  intros Hr Hn. destruct (books Hr) as (sent & pg & st' & fl & E & H1 & H2 & H3 & H4 & H5 & H6 & H7).
  assert (P : concat sent ++ concat pg ≡ₚ accepted h). { rewrite <- concat_app. apply split_perm; [done|]. apply Forall_app. split; by eapply merges_nonempty. }
  rewrite <- P in Hn. apply Forall_app in Hn as [Hn _]. clear -H1 H4 Hn. induction H1 as [|g o gs fl Hm _ IH]; [constructor|].
  apply Forall_cons in H4 as [Hc H4]. cbn [concat] in Hn. apply Forall_app in Hn as [Hg Hn]. constructor; [|auto]. cbn. rewrite (merges_logs Hm).
  destruct Hc as [Hc|Hc]; [right|left].
  - pose proof (logs_le Hg). nia.
  - destruct g as [|x g _] using rev_ind; [cbn; lia|]. rewrite removelast_last in Hc. rewrite logs_app. apply Forall_app in Hg as [_ Hg]. apply logs_le in Hg. cbn [length] in Hg. lia.
Qed.

Lemma report_foreign q st : rr_service q <> rc_service cf -> step (RReport q) st = Ok (st, ReportResult SInvalidArgument []).
Proof. intros H. rewrite bypass by auto. by rewrite decide_False. Qed.
Lemma report_important q st : rr_service q = rc_service cf -> Exists (fun o => op_importance o <> LOW) (rr_operations q) ->
  step (RReport q) st = Ok (st, ReportResult SNotFound []).
Proof. intros H1 H2. rewrite bypass by (right; left; by apply important). by rewrite decide_True. Qed.
Lemma report_disabled st h q : reach st h -> mx <= 0 -> rr_service q = rc_service cf ->
  step (RReport q) st = Ok (st, ReportResult SNotFound []) /\ accepted h = [] /\ rflushed h = [].
Proof.
  intros Hr Hm Hq. destruct (reach_inv Hr) as [_ I]. destruct (ra_cache st) as [c|] eqn:Ec.
  - destruct I as (o & G & fg & l & TL & I1 & _). lia.
  - split; [|apply I]. rewrite bypass by auto. by rewrite decide_True.
Qed.
Lemma report_accepted st h q st' res : reach st h -> 0 < mx -> rr_service q = rc_service cf -> Forall (fun o => op_importance o = LOW) (rr_operations q) ->
  step (RReport q) st = Ok (st', res) -> rres_status res = SOk.
Proof.
  intros Hr Hm Hq Hl Hs. destruct (reach_inv Hr) as [_ I]. destruct (ra_cache st) as [c|] eqn:Ec; [|lia].
  cbn [rstep] in Hs. unfold Report in Hs. rewrite Hq, String.eqb_refl, Ec in Hs. cbn [negb] in Hs.
  destruct (HasHighImportantOperation (rr_operations q)) eqn:Eh.
  - apply important in Eh. apply Exists_exists in Eh as (o & Ho & E). rewrite Forall_forall in Hl. by destruct (E (Hl o Ho)).
  - destruct (ofold _ _ _); try done. cbn [obind finish] in Hs. by inversion Hs.
Qed.

(** *** recent operations *)
Lemma recent_ops idle s h TL : 0 <= idle -> Forall2 (evtag idle) h TL ->
  (filter (fun x => s <= x.1) (concat TL)).*2 ⊆+ accepted (filter (reads_since clk s) h).
Proof.
  intros Hi F. unfold accepted. induction F as [|ev tl h TL [E F1] F IH]; [done|]. csimpl. rewrite filter_app, fmap_app, filter_cons. destruct (decide (reads_since clk s ev)) as [Hd|Hd].
  - csimpl. apply submseteq_app; [|done]. rewrite <- E. apply sublist_submseteq, fmap_sublist, filter_sub.
  - assert (filter (fun x : top => s <= x.1) tl = []) as ->; [|done].
    clear -F1 Hd Hi. induction F1 as [|x tl Hx _ IH]; [done|]. rewrite filter_cons_False; [done|]. intros Hs. apply Hd. destruct (Hx Hi) as (i & Hr & Ex).
    apply Exists_exists. exists i. split; [|lia]. apply elem_of_seq. lia.
Qed.

Lemma flushed_in_time st h ev idle : reach st (h ++ [ev]) -> looks ev -> cycles_of_ms (ro_flush_ms (rc_options cf)) = Ok (Some idle) ->
  exists sent pend, Forall2 (merges ord md5 cf) sent (ops_of (rflushed (h ++ [ev]))) /\ concat sent ++ pend ≡ₚ accepted (h ++ [ev]) /\
    pend ⊆+ accepted (filter (reads_since clk (clk (rv_from ev) - idle)) (h ++ [ev])).
Proof.
  intros Hr Hl Hc. destruct (reach_snoc _ _ Hr) as (st0 & Hr0 & Hs & X1 & X2 & X3). destruct (reach_inv Hr0) as [_ I]. destruct (ra_cache st0) as [c|] eqn:Ec.
  - destruct I as (o & G & fg & l & TL & L). destruct st0 as [x u]. cbn in Ec. subst x. cbn [ra_pool] in L.
    destruct (live_step _ L Hs) as (c' & l' & G' & ng & tl & HA & HL). destruct HA as (H1 & _ & _ & _ & _ & _ & _ & H8 & _).
    assert (Ev : ReportEvent (rv_call ev) (rv_result ev) (l_tick c) (l_tick c') st = ev).
    { destruct ev as [a b f t s]. cbn in *. unfold rreadings in *. cbn in X1. rewrite H1 in X2. by subst. }
    rewrite Ev in *. pose proof (live_accepted HL) as HT. destruct HL as (I1 & I2 & R & A & F). rewrite I2 in Hc. inversion Hc; subst o. cbn [timeout_of] in *.
    assert (Hi : 0 <= idle) by (by eapply cycles_nonneg). specialize (H8 Hl Hi).
    exists (parts (fg ++ ng)), (concat (G' <$> l'.*1)).*2. split; [by apply merged_groups, (ra_fl A)|]. pose proof (all_there A) as Hall. split.
    + rewrite <- HT, Hall, fmap_app. f_equiv. unfold parts. clear. induction (fg ++ ng) as [|g gs IH]; [done|]. csimpl. by rewrite fmap_app, <- IH.
    + etrans; [|apply (@recent_ops idle _ _ _ Hi F)]. 
      assert (P : filter (fun x : top => clk (rv_from ev) - idle <= x.1) (concat (TL ++ [tl])) ≡ₚ
                  filter (fun x : top => clk (rv_from ev) - idle <= x.1) (concat (fg ++ ng).*2) ++ concat (G' <$> l'.*1)).
      { rewrite Hall, filter_app. f_equiv. assert (rv_from ev = l_tick c) as -> by (by rewrite X1). pose proof (ra_cells A) as C. clear -H8 C. 
        induction l' as [|p l IH]; [done|]. apply Forall_cons in H8 as [Hp H8]. apply Forall_cons in C as [[_ Cp _ _] C]. csimpl. rewrite filter_app.
        rewrite (IH H8 C). f_equiv. clear -Hp Cp. induction Cp as [|x g [_ Hx] _ IH]; [done|]. rewrite filter_cons_True by lia. by rewrite IH. }
      apply (fmap_Permutation snd) in P. rewrite P, fmap_app. by apply submseteq_inserts_l.
  - destruct I as (I1 & I2 & I3). destruct (off_step (rv_call ev) _ Ec) as (res' & E1 & E2 & E3). rewrite E1 in Hs. inversion Hs; subst st res'.
    exists [], []. assert (Ea : accepted (h ++ [ev]) = []). { rewrite accepted_snoc, I2. cbn [app]. destruct ev as [a b f t s]. cbn in *. by rewrite E3. }
    rewrite Ea, flushed_snoc, I3, E2. repeat split; try constructor. apply submseteq_nil_l.
Qed.

(** *** nothing is flushed early when there is room *)
Lemma not_early st h ev : reach st (h ++ [ev]) -> rv_call ev <> RFlushAll ->
  (exists ks, Z.of_nat (length ks) <= mx /\ forall o : operation, o ∈ accepted (h ++ [ev]) -> sg o ∈ ks) ->
  exists gs, Forall2 (merges ord md5 cf) gs (ops_of (rres_flushed (rv_result ev))) /\
    Forall (fun g => (100 <= logs_in g)%nat \/
      exists o r ev0 i j idle, g = o :: r /\ ev0 ∈ h ++ [ev] /\ o ∈ accepted_ops ev0 /\ (rv_from ev0 <= i < rv_to ev0)%nat /\ (rv_from ev <= j < rv_to ev)%nat /\
        cycles_of_ms (ro_flush_ms (rc_options cf)) = Ok (Some idle) /\ idle < clk j - clk i) gs.
Proof.
  intros Hr Hl (ks & K1 & K2). destruct (reach_snoc _ _ Hr) as (st0 & Hr0 & Hs & X1 & X2 & X3). destruct (reach_inv Hr0) as [_ I]. destruct (ra_cache st0) as [c|] eqn:Ec.
  - destruct I as (o & G & fg & l & TL & L). destruct st0 as [x u]. cbn in Ec. subst x. cbn [ra_pool] in L.
    pose proof (ra_fl (proj1 (proj2 (proj2 (proj2 L))))) as HF0.
    destruct (live_step _ L Hs) as (c' & l' & G' & ng & tl & HA & HL). destruct HA as (H1 & _ & _ & HA4 & _ & _ & _ & _ & H9 & _).
    assert (Ev : ReportEvent (rv_call ev) (rv_result ev) (l_tick c) (l_tick c') st = ev).
    { destruct ev as [a b f t s]. cbn in *. unfold rreadings in *. cbn in X1. rewrite H1 in X2. by subst. }
    assert (Ef : rv_from ev = l_tick c) by (by rewrite <- Ev). assert (Et : rv_to ev = l_tick c') by (by rewrite <- Ev).
    rewrite Ev in *. pose proof (live_accepted HL) as HT. destruct HL as (I1 & I2 & R & A & F).
    assert (concat (TL ++ [tl]) = concat TL ++ tl) as Ecc. { rewrite concat_app. cbn. by rewrite app_nil_r. }
    exists (parts ng). split.
    { apply merged_groups. pose proof (ra_fl HA4) as HF. apply Forall2_app_inv_l in HF as (f1 & f2 & Q1 & Q2 & Q3). apply Forall2_length in HF0, Q1. apply app_inj_1 in Q3 as [_ <-]; [done|lia]. }
    assert (Hd : Forall (due clk (timeout_of o) (l_tick c) (l_tick c')) ng.*2).
    { apply H9; [done|]. exists ks. split; [done|]. intros x Hx. apply K2. rewrite <- HT, Ecc. by apply elem_of_list_fmap_1. }
    apply Forall_fmap. apply Forall_forall. intros g Hg. rewrite Forall_fmap in Hd. rewrite Forall_forall in Hd. destruct (Hd g Hg) as [(x & r & j & B1 & B2 & B3 & B4)|B]; [right|by left].
    assert (Hx : x ∈ concat (TL ++ [tl])).
    { rewrite (all_there A). apply elem_of_app. left. apply elem_of_list_In, in_concat. exists g.2. rewrite <- !elem_of_list_In. split; [|rewrite B1; left]. apply elem_of_list_fmap_1, elem_of_app. by right. }
    assert (Hev : exists ev0 tl0, ev0 ∈ h ++ [ev] /\ evtag (timeout_of o) ev0 tl0 /\ x ∈ tl0).
    { clear -F Hx. induction F as [|e0 t0 hh TT H0 F IH]; [by apply elem_of_nil in Hx|]. csimpl in Hx. apply elem_of_app in Hx as [Hx|Hx].
      - exists e0, t0. split; [left|done].
      - destruct (IH Hx) as (e1 & t1 & Q1 & Q2). exists e1, t1. split; [by right|done]. }
    destruct Hev as (ev0 & tl0 & V1 & [V2 V3] & V4). rewrite Forall_forall in V3. destruct (V3 x V4 B3) as (i & V5 & V6).
    destruct o as [idle|]; [|by cbn in B3].
    exists x.2, r.*2, ev0, i, j, idle. rewrite B1. split; [done|]. split; [done|]. split; [rewrite <- V2; by apply elem_of_list_fmap_1|]. split; [done|]. rewrite Ef, Et. split; [done|]. split; [done|]. cbn [timeout_of] in B4. by rewrite <- V6.
  - destruct I as (I1 & I2 & I3). destruct (off_step (rv_call ev) _ Ec) as (res' & E1 & E2 & E3). rewrite E1 in Hs. inversion Hs; subst st res'.
    exists []. rewrite E2. split; constructor.
Qed.

(** *** the batches *)
Lemma batches st h ev : reach st h -> ev ∈ h ->
  forall i q, rres_flushed (rv_result ev) !! i = Some q ->
    rr_service q = rc_service cf /\ rr_config q = rc_config_id cf /\ (1 <= length (rr_operations q) <= 10)%nat /\
    (S i < length (rres_flushed (rv_result ev)) -> length (rr_operations q) = 10)%nat.
Proof.
  intros Hr He i q Hi. destruct (reach_inv Hr) as [P _]. rewrite Forall_forall in P. destruct (P ev He) as [E|(full & q0 & E & F & B)].
  - by rewrite E in Hi.
  - rewrite E in *. apply lookup_app_Some in Hi as [Hi|[Hge Hi]].
    + rewrite Forall_forall in F. destruct (F q) as [B1 B2 B3 B4]; [by apply elem_of_list_lookup_2 in Hi|]. do 3 (split; [done|]). auto.
    + apply list_lookup_singleton_Some in Hi as [Hi <-]. destruct B as [B1 B2 B3 B4]. do 3 (split; [done|]). rewrite app_length. cbn. lia.
Qed.

(** *** no call fails *)
Lemma calls_complete st h call : reach st h ->
  (exists r, step call st = Ok r) \/
  (exists q first rest, call = RReport q /\ (first :: rest) `sublist_of` accepted h ++ rr_operations q /\
     forall x, aggregate ord md5 kinds first rest <> Ok x).
Proof.
  intros Hr. destruct (reach_inv Hr) as [_ I]. destruct (ra_cache st) as [c|] eqn:Ec.
  - destruct I as (o & G & fg & l & TL & L). destruct st as [x u]. cbn in Ec. subst x. pose proof (live_accepted L) as HT. destruct L as (I1 & I2 & R & A & F).
    destruct (step_ok h call R A) as [(st1 & res1 & c' & l' & G' & ng & tl & E & HA)|[N X]]; [left; by eexists|]. rewrite HT in X. by right.
  - left. destruct (off_step call _ Ec) as (res' & E1 & _). by eexists.
Qed.
Lemma destroy_complete st h : reach st h -> DestroyReportAggregator ord cf st = Ok tt.
Proof.
  intros Hr. destruct (reach_inv Hr) as [_ I]. unfold DestroyReportAggregator, FlushAll. destruct (ra_cache st) as [c|] eqn:Ec.
  - destruct I as (o & G & fg & l & TL & I1 & I2 & R & A & F). destruct (agg_removeall gone ord (ar_items [] R)) as (c' & u' & gs & E1 & E0 & E2 & E3 & E4).
    change (OnCacheEntryDelete ord cf) with (passive (delete_with gone)). rewrite E1. cbn [obind finish fst snd ra_cache]. by apply (ar_destroy E2).
  - cbn [obind fst]. by rewrite Ec.
Qed.
End claims.

Lemma new_complete ord md5 clk cf : proper_clock clk -> int32_min <= ro_flush_ms (rc_options cf) <= int32_max ->
  exists st, rreach ord md5 clk cf st [].
Proof.
  intros [Hm Hp] Hi. assert (exists o, cycles_of_ms (ro_flush_ms (rc_options cf)) = Ok o) as [o Eo].
  { destruct (Z.le_gt_cases 0 (ro_flush_ms (rc_options cf))) as [H|H].
    - destruct (timeout_accurate _ (conj H (proj2 Hi))) as (n & E & _). eauto.
    - eexists. exact (seconds_negative _ (proj1 Hi) H). }
  unfold NewReportAggregator. destruct (0 <? ro_entries (rc_options cf)) eqn:Em.
  - apply Z.ltb_lt in Em.
    destruct (agg_new (removed_report ord cf) clk false (mx:=ro_entries (rc_options cf)) (o:=o) (n:=2) eq_refl) as (c & u' & E1 & -> & E2 & E3); [|lia|lia|].
    { intros i ->. by eapply cycles_nonneg. }
    eexists. constructor. unfold NewReportAggregator. apply Z.ltb_lt in Em. rewrite Em, Eo. cbn [obind].
    change (OnCacheEntryDelete ord cf) with (passive (delete_with (removed_report ord cf))). rewrite E1. cbn [obind fst snd]. reflexivity.
  - eexists. constructor. unfold NewReportAggregator. by rewrite Em.
Qed.
