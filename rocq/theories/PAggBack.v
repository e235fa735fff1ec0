(** What the aggregators on the pointer-level cache do, those on the list-level cache do too. *)
From Verif Require Import Base Proto Signature OpAgg OpAggSpec Lru LruSpec LruSim LruOps LruOps2 Timeout TimeoutProofs TimeoutSign Agg AggCache OpGroups CheckAgg CheckAggSpec CheckAggProofs CheckAggInv CheckAggClaims ReportAgg ReportAggSpec ReportAggProofs ReportAggInv ReportAggStep ReportAggClaims LinkedList PLru PLruProofs PLruRest PLruClaims PAgg PAggProofs.
From stdpp Require Import gmap list.
Local Open Scope Z_scope.
Set Implicit Arguments.

Lemma tidy_of {E AA} clk mx idle mode (c : lru nat) (u : pool E AA) l (x : plru nat) : ARep clk mx idle mode c u l -> Ok_ x c -> exists rec, tidy x (p_vals u) rec.
Proof.
  intros R (rec & D & -> & W). exists rec. destruct (ar_rep R) as (L & P & D' & A & T). cbn [view q_lst q_pin q_def] in *.
  pose proof (ab_pin A) as EP. pose proof (ab_def A) as ED. cbn [view q_pin q_def] in EP, ED. symmetry in EP, ED. apply fmap_nil_inv in EP, ED. subst P D'.
  pose proof (ab_heap A) as Hh. rewrite !app_nil_r in Hh. cbn [shape l_heap] in Hh. pose proof (ab_list A) as El. cbn [shape l_list] in El.
  destruct (wf_lay W) as [loose Rg]. destruct (@rng_walk _ _ [] 0 (S <$> rec) Rg) as [F B]; [cbn; left|]. rewrite app_nil_r in F, B.
  assert (Hin : forall n e, p_heap x !! n = Some e <-> (n, e) ∈ L). { intros n e. rewrite <- elem_of_map_to_list, Hh. done. }
  split.
  - done.
  - done.
  - intros n. rewrite (wf_dom W). rewrite El. split.
    + intros [e He]. apply Hin in He. apply elem_of_list_fmap. by exists (n, e).
    + intros H. apply elem_of_list_fmap in H as ([n' e] & -> & H). apply Hin in H. by eexists.
  - rewrite Hh. by rewrite El.
  - intros k n. cbn [shape l_table] in T. rewrite app_nil_r in T. rewrite <- elem_of_map_to_list, T. unfold tab. rewrite elem_of_list_fmap. split.
    + intros ([n' e] & [= -> ->] & H). exists e. by rewrite Hin.
    + intros (e & He & <-). exists (n, e). by rewrite <- Hin.
  - intros n e He. apply Hin in He. assert (He2 : e ∈ L.*2) by (apply elem_of_list_fmap; by exists (n, e)). rewrite <- (ab_lst A) in He2. cbn [view q_lst] in He2.
    by apply elem_of_list_fmap in He2 as (p & -> & _).
  - apply map_eq. intros k. rewrite lookup_empty. rewrite (wf_heads W). pose proof (ab_defer A k) as Hd. cbn [shape l_defer] in Hd. destruct (D !! k) as [[|n t]|] eqn:E0; try done.
    cbn in Hd. symmetry in Hd. by apply Permutation_nil_cons in Hd.
  - rewrite Hh. rewrite (ar_vals R). rewrite <- (list_fmap_compose held). change (fst ∘ held) with (fun p : nat * ent E => p.1).
    change ((fun q : nat * elem nat => e_value q.2) <$> L) with (e_value ∘ snd <$> L). rewrite (list_fmap_compose snd e_value L). rewrite <- (ab_lst A). cbn [view q_lst]. by rewrite mk_values.
Qed.

Section check.
Variable ord : hash_order.
Variable md5 : string -> string.
Variable clk : nat -> Z.
Variable cf : check_config.
Hypothesis Hclk : proper_clock clk.
Notation gone := (removed_check ord cf).
Let Hmono := proj1 Hclk.
Let Hpos := proj2 Hclk.

Lemma cnew_back p : PNewCheckAggregator ord clk cf = Ok p -> exists st, NewCheckAggregator ord clk cf = Ok st.
Proof.
  unfold NewCheckAggregator, PNewCheckAggregator. destruct (0 <? _) eqn:Em; [|by eexists]. apply Z.ltb_lt in Em.
  intros (o & E1 & _)%obind_ok_inv. rewrite E1. cbn [obind].
  change (CheckAgg.OnCacheEntryDelete ord cf) with (passive (delete_with gone)).
  destruct (agg_new gone clk true (mx:=co_entries (cc_options cf)) (o:=o) (n:=2) eq_refl) as (c & u' & E2 & _); [|lia|lia|].
  { intros i ->. by eapply cycles_nonneg. }
  rewrite E2. by eexists.
Qed.
Lemma cstep_back call p st h r : creach ord md5 clk cf st h -> crel p st -> p_cstep ord md5 clk cf call p = Ok r -> exists r', cstep ord md5 clk cf call st = Ok r'.
Proof.
  intros R Hr Hp. destruct (CheckAggClaims.calls_complete Hclk call R) as [H|(q & f0 & r0 & -> & _)]; [done|].
  destruct (CheckAggClaims.reach_inv Hclk R) as [o I]. unfold CheckAggInv.Inv in I. destruct (ca_cache st) as [c|] eqn:Ec.
  2: { destruct (check_bypass ord md5 clk cf q st (or_intror Ec)) as (s & E1 & _). by eexists. }
  destruct I as (I1 & I2 & l & IC). destruct st as [x u]. cbn in Ec. subst x. pose proof (ck_rep IC) as R1.
  destruct (eligible cf q) eqn:Eq.
  2: { destruct (check_bypass ord md5 clk cf q (CheckAgg (Some c) u) (or_introl Eq)) as (s & E1 & _). by eexists. }
  destruct (run_check ord md5 cf Hclk q R1 Eq) as [(Hk & c' & u' & E1 & _)|(p0 & Hp0 & Ek & HM)]; [by eexists|].
  destruct (absorb ord md5 cf q (n_val p0.2)) as [e1| | |] eqn:Ea.
  { destruct HM as (c' & u' & e2 & E1 & _). by eexists. }
  all: exfalso; clear HM; destruct p as [[x|] u0]; destruct Hr as [E0 Hx]; cbn [pca_pool ca_pool pca_cache ca_cache] in *; try done; subst u0;
    cbn [p_cstep] in Hp; unfold PCheck in Hp; unfold eligible in Eq; apply andb_prop in Eq as [Eq1 Eq2]; rewrite Eq1 in Hp; cbn [negb pca_cache pca_pool] in Hp;
    destruct (cr_operation q) as [op|] eqn:Eo; [|done]; rewrite Eq2 in Hp; cbn [negb] in Hp;
    change (GenerateCheckRequestSignature ord md5 q) with (sig_of ord md5 q) in Hp; rewrite <- Ek in Hp;
    destruct (agg_hit gone Hmono Hpos (ar_items [] R1) Hp0) as (c1 & u1 & E1 & E2 & _);
    destruct (ok_ticks Hx) as (_ & Hn & _); rewrite Hn in Hp;
    destruct (lookup_ok (check_faithful ord cf) Hx E1) as (x1 & E3 & Hx1); rewrite E3 in Hp; cbn [obind fst snd] in Hp;
    unfold Agg.deref in Hp; rewrite E2 in Hp; cbn [obind] in Hp; unfold absorb in Ea; destruct (cs_errors _); [|done]; cbn [length Z.of_nat] in Hp; rewrite Ea in Hp; done.
Qed.
Lemma check_back calls p rs : p_check_history ord md5 clk cf calls = Ok (p, rs) -> exists st h, creach ord md5 clk cf st h /\ cv_call <$> h = calls /\ told h = rs.
Proof.
  revert p rs. induction calls as [|call calls IH] using rev_ind; intros p rs.
  - unfold p_check_history. intros (p0 & E1 & E2)%obind_ok_inv. injection E2 as <- <-. destruct (cnew_back E1) as [st E]. exists st, []. split; [by constructor|done].
  - intros H. assert (exists p1 rs1 r, p_check_history ord md5 clk cf calls = Ok (p1, rs1) /\ p_cstep ord md5 clk cf call p1 = Ok r /\ rs = rs1 ++ [(call, r.2)]) as (p1 & rs1 & r & H1 & H2 & ->).
    { unfold p_check_history in *. destruct (PNewCheckAggregator _ _ _) as [p0| | |]; try done. cbn [obind] in *. rewrite p_calls_snoc in H.
      apply obind_ok_inv in H as ([p1 rs1] & E1 & H). apply obind_ok_inv in H as (r & E2 & H). injection H as <- <-. by exists p1, rs1, r. }
    destruct (IH _ _ H1) as (st & h & R & E1 & E2). destruct (check_same R) as (p2 & E3 & Hr). rewrite E1, E2 in E3.
    assert (p1 = p2) as -> by congruence. destruct (cstep_back _ R Hr H2) as [[st' res] E4]. destruct (cstep_ok _ _ _ _ _ Hr E4) as (p3 & E5 & _).
    eexists st', (h ++ [_]). split; [by eapply creach_step|]. rewrite fmap_app, E1. split; [done|]. unfold told in *. rewrite fmap_app, E2. rewrite E5 in H2. by injection H2 as <-.
Qed.
Lemma check_tidy calls p rs x : p_check_history ord md5 clk cf calls = Ok (p, rs) -> pca_cache p = Some x -> exists rec, tidy x (p_vals (pca_pool p)) rec.
Proof.
  intros H Ex. destruct (check_back _ H) as (st & h & R & E1 & E2). destruct (check_same R) as (p2 & E3 & Eu & Hr). rewrite E1, E2 in E3. rewrite H in E3. injection E3 as <-. rewrite Ex in Hr.
  destruct (ca_cache st) as [c|] eqn:Ec; [|done]. destruct (CheckAggClaims.reach_inv Hclk R) as [o I]. unfold CheckAggInv.Inv in I. rewrite Ec in I. destruct I as (_ & _ & l & IC). rewrite Eu. exact (tidy_of (ck_rep IC) Hr).
Qed.
Lemma check_complete calls p rs call : p_check_history ord md5 clk cf calls = Ok (p, rs) ->
  (exists r, p_cstep ord md5 clk cf call p = Ok r) \/
  (exists q first rest, call = CCheck q /\ (first :: rest) `sublist_of` p_checked (calls ++ [call]) /\ forall x, aggregate ord md5 (cc_kinds cf) first rest <> Ok x).
Proof.
  intros H. destruct (check_back _ H) as (st & h & R & E1 & E2). destruct (check_same R) as (p2 & E3 & Hr). rewrite E1, E2 in E3. rewrite H in E3. injection E3 as <-.
  destruct (CheckAggClaims.calls_complete Hclk call R) as [[[st' res] E]|(q & f0 & r0 & -> & S & N)].
  - left. destruct (cstep_ok _ _ _ _ _ Hr E) as (p' & E4 & _). by eexists.
  - right. exists q, f0, r0. split; [done|]. split; [|done]. rewrite <- E1. unfold p_checked. rewrite bind_app. cbn. unfold all_checked in S.
    replace ((cv_call <$> h) ≫= _) with (h ≫= check_op); [done|]. clear. induction h as [|ev h IH]; [done|]. cbn. by rewrite IH.
Qed.
Lemma check_destroyed calls p rs : p_check_history ord md5 clk cf calls = Ok (p, rs) -> PDestroyCheck ord cf p = Ok tt.
Proof.
  intros H. destruct (check_back _ H) as (st & h & R & E1 & E2). destruct (check_same R) as (p2 & E3 & Hr). rewrite E1, E2 in E3. rewrite H in E3. injection E3 as <-.
  eapply cdestroy_ok; [exact md5|exact clk|exact Hr|]. by eapply CheckAggClaims.destroy_complete.
Qed.
End check.

Section report.
Variable ord : hash_order.
Variable md5 : string -> string.
Variable clk : nat -> Z.
Variable cf : report_config.
Hypothesis Hclk : proper_clock clk.
Notation gone := (removed_report ord cf).
Let Hmono := proj1 Hclk.
Let Hpos := proj2 Hclk.

Lemma rnew_back p : PNewReportAggregator ord clk cf = Ok p -> exists st, NewReportAggregator ord clk cf = Ok st.
Proof.
  unfold NewReportAggregator, PNewReportAggregator. destruct (0 <? _) eqn:Em; [|by eexists]. apply Z.ltb_lt in Em.
  intros (o & E1 & _)%obind_ok_inv. rewrite E1. cbn [obind].
  change (ReportAgg.OnCacheEntryDelete ord cf) with (passive (delete_with gone)).
  destruct (agg_new gone clk false (mx:=ro_entries (rc_options cf)) (o:=o) (n:=2) eq_refl) as (c & u' & E2 & _); [|lia|lia|].
  { intros i ->. by eapply cycles_nonneg. }
  rewrite E2. by eexists.
Qed.
Lemma one_back idle x c u l o w : ARep clk (ro_entries (rc_options cf)) idle false c u l -> Ok_ x c -> p_report_one ord md5 clk cf (x, u) o = Ok w ->
  exists c' u' l', report_one ord md5 clk cf (c, u) o = Ok (c', u') /\ ARep clk (ro_entries (rc_options cf)) idle false c' u' l'.
Proof.
  intros R Hx Hw. destruct (ok_ticks Hx) as (_ & Hn & _). destruct (run_one ord md5 cf Hclk o R) as [(Hk & HM)|(p & Hp & Ek & HM)].
  - destruct (NewOperationAggregator ord md5 (rc_kinds cf) o) as [a| | |] eqn:Ea.
    { destruct HM as (c' & u' & y & E & R' & _). eauto. }
    all: exfalso; clear HM; unfold p_report_one in Hw; change (GenerateReportOperationSignature ord md5 o) with (rsig ord md5 o) in Hw; cbn [fst] in Hw; rewrite Hn in Hw;
      destruct (agg_miss gone Hmono Hpos R Hk) as (c1 & u1 & E1 & _);
      destruct (lookup_ok (report_faithful ord cf) Hx E1) as (x1 & E3 & Hx1); rewrite E3 in Hw; cbn [obind fst snd] in Hw; rewrite Ea in Hw; done.
  - destruct (MergeOperation ord md5 (rc_kinds cf) o (n_val p.2)) as [a| | |] eqn:Ea.
    { destruct HM as (c' & u' & E & _ & HM). destruct (TooBig a); destruct HM as [R' _]; eauto. }
    all: exfalso; clear HM; unfold p_report_one in Hw; change (GenerateReportOperationSignature ord md5 o) with (rsig ord md5 o) in Hw; cbn [fst] in Hw; rewrite Hn in Hw; rewrite <- Ek in Hw;
      destruct (agg_hit gone Hmono Hpos R Hp) as (c1 & u1 & E1 & E2 & _);
      destruct (lookup_ok (report_faithful ord cf) Hx E1) as (x1 & E3 & Hx1); rewrite E3 in Hw; cbn [obind fst snd] in Hw;
      unfold Agg.deref in Hw; rewrite E2 in Hw; cbn [obind] in Hw; rewrite Ea in Hw; done.
Qed.
Lemma all_back idle ops : forall x c u l w, ARep clk (ro_entries (rc_options cf)) idle false c u l -> Ok_ x c -> ofold (p_report_one ord md5 clk cf) (x, u) ops = Ok w ->
  exists w', ofold (report_one ord md5 clk cf) (c, u) ops = Ok w'.
Proof.
  induction ops as [|o ops IH]; intros x c u l w R Hx; cbn; [by eexists|].
  intros (w1 & E1 & E2)%obind_ok_inv. destruct (one_back _ R Hx E1) as (c1 & u1 & l1 & E3 & R1). destruct (report_one_ok _ _ _ _ _ _ Hx E3) as (x1 & E4 & Hx1).
  rewrite E3. cbn [obind]. rewrite E4 in E1. injection E1 as <-. by eapply IH.
Qed.
Lemma rstep_back call p st h r : rreach ord md5 clk cf st h -> rrel p st -> p_rstep ord md5 clk cf call p = Ok r -> exists r', ReportAggSpec.rstep ord md5 clk cf call st = Ok r'.
Proof.
  intros R Hr Hp. destruct (ReportAggClaims.calls_complete Hclk call R) as [H|(q & f0 & r0 & -> & _)]; [done|].
  destruct (ReportAggClaims.reach_inv Hclk R) as [_ I]. destruct (ra_cache st) as [c|] eqn:Ec.
  2: { rewrite (ReportAggClaims.bypass ord md5 clk cf q st); [by eexists|by auto]. }
  destruct I as (o & G & fg & l & TL & L). destruct st as [x u]. cbn in Ec. subst x. destruct L as (I1 & I2 & RR & _).
  destruct p as [[x|] u0]; destruct Hr as [E0 Hx]; cbn [pra_pool ra_pool pra_cache ra_cache] in *; try done. subst u0.
  cbn [ReportAggSpec.rstep p_rstep] in *. unfold Report, PReport in *. cbn [pra_pool ra_pool pra_cache ra_cache] in *. destruct (negb _); [by eexists|]. destruct (HasHighImportantOperation _); [by eexists|].
  apply obind_ok_inv in Hp as (w & E1 & _). destruct (all_back _ (ar_items [] RR) Hx E1) as [w' E]. rewrite E. by eexists.
Qed.
Lemma report_back calls p rs : p_report_history ord md5 clk cf calls = Ok (p, rs) -> exists st h, rreach ord md5 clk cf st h /\ rv_call <$> h = calls /\ rtold h = rs.
Proof.
  revert p rs. induction calls as [|call calls IH] using rev_ind; intros p rs.
  - unfold p_report_history. intros (p0 & E1 & E2)%obind_ok_inv. injection E2 as <- <-. destruct (rnew_back E1) as [st E]. exists st, []. split; [by constructor|done].
  - intros H. assert (exists p1 rs1 r, p_report_history ord md5 clk cf calls = Ok (p1, rs1) /\ p_rstep ord md5 clk cf call p1 = Ok r /\ rs = rs1 ++ [(call, r.2)]) as (p1 & rs1 & r & H1 & H2 & ->).
    { unfold p_report_history in *. destruct (PNewReportAggregator _ _ _) as [p0| | |]; try done. cbn [obind] in *. rewrite p_rcalls_snoc in H.
      apply obind_ok_inv in H as ([p1 rs1] & E1 & H). apply obind_ok_inv in H as (r & E2 & H). injection H as <- <-. by exists p1, rs1, r. }
    destruct (IH _ _ H1) as (st & h & R & E1 & E2). destruct (report_same R) as (p2 & E3 & Hr). rewrite E1, E2 in E3.
    assert (p1 = p2) as -> by congruence. destruct (rstep_back _ R Hr H2) as [[st' res] E4]. destruct (rstep_ok _ _ _ _ _ Hr E4) as (p3 & E5 & _).
    eexists st', (h ++ [_]). split; [by eapply rreach_step|]. rewrite fmap_app, E1. split; [done|]. unfold rtold in *. rewrite fmap_app, E2. rewrite E5 in H2. by injection H2 as <-.
Qed.
Lemma report_tidy calls p rs x : p_report_history ord md5 clk cf calls = Ok (p, rs) -> pra_cache p = Some x -> exists rec, tidy x (p_vals (pra_pool p)) rec.
Proof.
  intros H Ex. destruct (report_back _ H) as (st & h & R & E1 & E2). destruct (report_same R) as (p2 & E3 & Eu & Hr). rewrite E1, E2 in E3. rewrite H in E3. injection E3 as <-. rewrite Ex in Hr.
  destruct (ra_cache st) as [c|] eqn:Ec; [|done]. destruct (ReportAggClaims.reach_inv Hclk R) as [_ I]. rewrite Ec in I. destruct I as (o & G & fg & l & TL & _ & _ & RR & _). rewrite Eu. exact (tidy_of RR Hr).
Qed.
Lemma report_complete calls p rs call : p_report_history ord md5 clk cf calls = Ok (p, rs) ->
  (exists r, p_rstep ord md5 clk cf call p = Ok r) \/
  (exists q first rest, call = RReport q /\ (first :: rest) `sublist_of` p_reported (calls ++ [call]) /\ forall x, aggregate ord md5 (rc_kinds cf) first rest <> Ok x).
Proof.
  intros H. destruct (report_back _ H) as (st & h & R & E1 & E2). destruct (report_same R) as (p2 & E3 & Hr). rewrite E1, E2 in E3. rewrite H in E3. injection E3 as <-.
  destruct (ReportAggClaims.calls_complete Hclk call R) as [[[st' res] E]|(q & f0 & r0 & -> & S & N)].
  - left. destruct (rstep_ok _ _ _ _ _ Hr E) as (p' & E4 & _). by eexists.
  - right. exists q, f0, r0. split; [done|]. split; [|done]. rewrite <- E1. unfold p_reported. rewrite bind_app. cbn. rewrite app_nil_r. etransitivity; [exact S|]. apply sublist_app; [|done].
    unfold accepted. clear. induction h as [|ev h IH]; [done|]. cbn. apply sublist_app; [|exact IH]. unfold accepted_ops. destruct (rv_call ev); try done. destruct (rres_status _); try done; apply sublist_nil_l.
Qed.
Lemma report_destroyed calls p rs : p_report_history ord md5 clk cf calls = Ok (p, rs) -> PDestroyReport ord cf p = Ok tt.
Proof.
  intros H. destruct (report_back _ H) as (st & h & R & E1 & E2). destruct (report_same R) as (p2 & E3 & Hr). rewrite E1, E2 in E3. rewrite H in E3. injection E3 as <-.
  eapply rdestroy_ok; [exact md5|exact clk|exact Hr|]. by eapply ReportAggClaims.destroy_complete.
Qed.
End report.
