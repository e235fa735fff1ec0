(** The aggregators on the pointer-level cache do what those on the list-level cache do. *)
From stdpp Require Import gmap.
From Verif Require Import Base Proto Signature OpAgg Lru LruSpec LruSim Timeout Agg CheckAgg CheckAggSpec CheckAggClaims ReportAgg ReportAggSpec ReportAggClaims LinkedList PLru PLruProofs PLruRest PLruClaims PAgg.
Local Open Scope Z_scope.
Set Implicit Arguments.

Lemma obind_ok_inv {A B} (x : outcome A) (f : A -> outcome B) b : obind x f = Ok b -> exists a, x = Ok a /\ f a = Ok b.
Proof. destruct x; try done. cbn. eauto. Qed.
Lemma ok_tick (p : plru nat) c : Ok_ p c -> Ok_ (p_ticked p) (after_now c).
Proof. intros (l & D & -> & W). exists l, D. split; [done|]. by apply (wf_same (p := p)). Qed.
Lemma ok_now clk (p : plru nat) c : Ok_ p c -> p_now clk p = read_now clk c.
Proof. intros H. destruct (ok_ticks H) as (E & _). unfold p_now, read_now. by rewrite E. Qed.
Lemma destroy_same (p : plru nat) c : Ok_ p c -> DestroyCache c = Ok tt -> PDestroyCache p = Ok tt.
Proof.
  intros H. destruct (destroy_ok H) as [E1 E2]. unfold DestroyCache, PDestroyCache, assert_. rewrite E2.
  destruct (bool_decide (l_table c = ∅)); [|done]. cbn [obind]. case_bool_decide as E; [|done]. intros _. rewrite bool_decide_true; [done|]. by apply E1.
Qed.

Section check.
Variable ord : hash_order.
Variable md5 : string -> string.
Variable clk : nat -> Z.
Variable cf : check_config.

Lemma passive_silent {V U} (g : U -> string * V -> outcome U) : silent (passive g) (p_passive g).
Proof. intros k v c u c' u' (u1 & E1 & [= <- <-])%obind_ok_inv. split; [done|]. intros p. unfold p_passive. cbn [snd] in *. by rewrite E1. Qed.
Lemma check_silent : silent (CheckAgg.OnCacheEntryDelete ord cf) (p_check_deleter ord cf).
Proof. apply passive_silent. Qed.
Lemma check_faithful : faithful (CheckAgg.OnCacheEntryDelete ord cf) (p_check_deleter ord cf).
Proof. apply silent_faithful, check_silent. Qed.

Definition crel (p : pcheck_agg) (st : check_agg) : Prop :=
  pca_pool p = ca_pool st /\ match pca_cache p, ca_cache st with Some x, Some c => Ok_ x c | None, None => True | _, _ => False end.

Lemma cnew_ok st : NewCheckAggregator ord clk cf = Ok st -> exists p, PNewCheckAggregator ord clk cf = Ok p /\ crel p st.
Proof.
  unfold NewCheckAggregator, PNewCheckAggregator. destruct (0 <? _); [|intros [= <-]; by eexists].
  intros (t & E1 & (w & E2 & E3)%obind_ok_inv)%obind_ok_inv. rewrite E1. cbn [obind]. destruct (new_ok (V := nat) (co_entries (cc_options cf))) as (p & -> & Hp). cbn [obind].
  destruct w as [c u]. destruct (set_timeout_ok check_faithful Hp E2) as (p' & -> & Hp'). injection E3 as <-. eexists. split; [done|]. done.
Qed.
Lemma cstep_ok call p st st' res : crel p st -> cstep ord md5 clk cf call st = Ok (st', res) -> exists p', p_cstep ord md5 clk cf call p = Ok (p', res) /\ crel p' st'.
Proof.
  destruct p as [x u], st as [c u']. intros [E Hx]. cbn [pca_pool ca_pool pca_cache ca_cache] in *. subst u'.
  destruct call as [q|q r| |]; cbn [cstep p_cstep].
  - unfold Check, PCheck. cbn [pca_cache ca_cache pca_pool ca_pool]. destruct (negb _); [intros [= <- <-]; by eexists|].
    destruct (cr_operation q) as [o|]; [|intros [= <- <-]; by eexists]. destruct c as [c|], x as [x|]; try done; [|intros [= <- <-]; by eexists].
    destruct (negb _); [intros [= <- <-]; by eexists|]. set (sg := GenerateCheckRequestSignature ord md5 q).
    intros ([[c1 u1] r] & E1 & E2)%obind_ok_inv. destruct (ok_ticks Hx) as (_ & Hn & _). rewrite Hn.
    destruct (lookup_ok check_faithful Hx E1) as (x1 & -> & Hx1). cbn [obind fst snd] in *.
    destruct r as [a|]; [|injection E2 as <- <-; by eexists].
    apply obind_ok_inv in E2 as (e & -> & E2). cbn [obind]. unfold PShouldFlush, ShouldFlush in *.
    assert (HR : forall s rp c2 x2 e2, Ok_ x2 c2 -> (let! w := Release (CheckAgg.OnCacheEntryDelete ord cf) clk sg a (c2, assign a e2 u1) in Ok (CheckAgg.finish s rp w)) = Ok (st', res) ->
      exists p', (let! w := PRelease (p_check_deleter ord cf) clk true sg a (x2, assign a e2 u1) in Ok (p_check_finish s rp w)) = Ok (p', res) /\ crel p' st').
    { intros s rp c2 x2 e2 H2 ([c3 u3] & E3 & E4)%obind_ok_inv. destruct (release_ok check_faithful H2 E3) as (x3 & -> & Hx3).
      cbn [obind]. injection E4 as <- <-. by eexists. }
    rewrite (ok_now clk Hx1). pose proof (ok_tick Hx1) as Hx2. rewrite (ok_now clk Hx2).
    destruct (0 <? _).
    + destruct (_ <=? _); (eapply HR; [|exact E2]; by repeat apply ok_tick).
    + apply obind_ok_inv in E2 as (e1 & -> & E2). cbn [obind]. destruct (_ <=? _); (eapply HR; [|exact E2]; by repeat apply ok_tick).
  - unfold CacheResponse, PCacheResponse. cbn [pca_cache ca_cache pca_pool ca_pool]. destruct c as [c|], x as [x|]; try done; [|intros [= <- <-]; by eexists].
    set (sg := GenerateCheckRequestSignature ord md5 q).
    intros ([[c1 u1] v] & E1 & E2)%obind_ok_inv. destruct (ok_ticks Hx) as (_ & Hn & _). rewrite Hn.
    destruct (lookup_ok check_faithful Hx E1) as (x1 & -> & Hx1). cbn [obind fst snd] in *.
    rewrite (ok_now clk Hx1). pose proof (ok_tick Hx1) as Hx2. destruct v as [a|].
    + apply obind_ok_inv in E2 as (e & -> & E2). cbn [obind]. apply obind_ok_inv in E2 as ([c3 u3] & E3 & E4).
      destruct (release_ok check_faithful Hx2 E3) as (x3 & -> & Hx3). cbn [obind]. injection E4 as <- <-. by eexists.
    + apply obind_ok_inv in E2 as ([c3 u3] & E3 & E4). destruct (ok_ticks Hx2) as (_ & Hn2 & _). rewrite Hn2.
      destruct (insert_ok check_faithful Hx2 E3) as (x3 & -> & Hx3). cbn [obind]. injection E4 as <- <-. by eexists.
  - unfold CheckAgg.Flush, PCheckFlush. cbn [pca_cache ca_cache pca_pool ca_pool]. destruct c as [c|], x as [x|]; try done; [|intros [= <- <-]; by eexists].
    intros ([c3 u3] & E3 & E4)%obind_ok_inv. destruct (ok_ticks Hx) as (_ & Hn & _). rewrite Hn.
    destruct (expired_ok check_faithful Hx E3) as (x3 & -> & Hx3). cbn [obind]. injection E4 as <- <-. by eexists.
  - unfold CheckAgg.FlushAll, PCheckFlushAll. cbn [pca_cache ca_cache pca_pool ca_pool]. destruct c as [c|], x as [x|]; try done; [|intros [= <- <-]; by eexists].
    intros ([c3 u3] & E3 & E4)%obind_ok_inv.
    destruct (remove_all_ok check_silent Hx E3) as (x3 & -> & Hx3). cbn [obind]. injection E4 as <- <-. by eexists.
Qed.
Lemma cdestroy_ok p st : crel p st -> DestroyCheckAggregator ord cf st = Ok tt -> PDestroyCheck ord cf p = Ok tt.
Proof.
  intros Hr. unfold DestroyCheckAggregator, PDestroyCheck. intros ([st' res] & E1 & E2)%obind_ok_inv.
  destruct (cstep_ok CFlushAll Hr E1) as (p' & E3 & [_ Hx]). cbn [p_cstep] in E3. rewrite E3. cbn [obind fst] in *.
  destruct (pca_cache p') as [x|], (ca_cache st') as [c|]; try done. by eapply destroy_same.
Qed.

Lemma p_calls_snoc calls call p : p_check_calls ord md5 clk cf (calls ++ [call]) p =
  let! rs := p_check_calls ord md5 clk cf calls p in let! r := p_cstep ord md5 clk cf call rs.1 in Ok (r.1, rs.2 ++ [(call, r.2)]).
Proof.
  revert p. induction calls as [|a calls IH]; intros p; cbn.
  - destruct (p_cstep _ _ _ _ call p) as [[? ?]| | |]; done.
  - destruct (p_cstep _ _ _ _ a p) as [[p1 r1]| | |]; try done. cbn [obind fst snd]. rewrite IH. destruct (p_check_calls _ _ _ _ calls p1) as [[p2 r2]| | |]; try done. cbn [obind fst snd].
    destruct (p_cstep _ _ _ _ call p2) as [[p3 r3]| | |]; done.
Qed.
Lemma check_same st h : creach ord md5 clk cf st h -> exists p, p_check_history ord md5 clk cf (cv_call <$> h) = Ok (p, told h) /\ crel p st.
Proof.
  intros R. induction R as [st E|st h call st' res R (p & E & Hr) Hs].
  - destruct (cnew_ok E) as (p & E1 & Hp). exists p. split; [|done]. unfold p_check_history. by rewrite E1.
  - destruct (cstep_ok _ Hr Hs) as (p' & E1 & Hp). exists p'. split; [|done]. unfold p_check_history in *. destruct (PNewCheckAggregator ord clk cf) as [p0| | |]; try done. cbn [obind] in *.
    rewrite fmap_app. cbn [fmap list_fmap cv_call]. rewrite p_calls_snoc, E. cbn [obind fst snd]. rewrite E1. cbn [obind fst snd]. unfold told. by rewrite fmap_app.
Qed.
End check.

Section report.
Variable ord : hash_order.
Variable md5 : string -> string.
Variable clk : nat -> Z.
Variable cf : report_config.

Lemma report_silent : silent (ReportAgg.OnCacheEntryDelete ord cf) (p_report_deleter ord cf).
Proof. apply passive_silent. Qed.
Lemma report_faithful : faithful (ReportAgg.OnCacheEntryDelete ord cf) (p_report_deleter ord cf).
Proof. apply silent_faithful, report_silent. Qed.

Definition rrel (p : preport_agg) (st : report_agg) : Prop :=
  pra_pool p = ra_pool st /\ match pra_cache p, ra_cache st with Some x, Some c => Ok_ x c | None, None => True | _, _ => False end.

Lemma rnew_ok st : NewReportAggregator ord clk cf = Ok st -> exists p, PNewReportAggregator ord clk cf = Ok p /\ rrel p st.
Proof.
  unfold NewReportAggregator, PNewReportAggregator. destruct (0 <? _); [|intros [= <-]; by eexists].
  intros (t & E1 & (w & E2 & E3)%obind_ok_inv)%obind_ok_inv. rewrite E1. cbn [obind]. destruct (new_ok (V := nat) (ro_entries (rc_options cf))) as (p & -> & Hp). cbn [obind].
  destruct w as [c u]. destruct (set_timeout_ok report_faithful Hp E2) as (p' & -> & Hp'). injection E3 as <-. eexists. split; [done|]. done.
Qed.
Lemma report_one_ok x c u o c' u' : Ok_ x c -> report_one ord md5 clk cf (c, u) o = Ok (c', u') -> exists x', p_report_one ord md5 clk cf (x, u) o = Ok (x', u') /\ Ok_ x' c'.
Proof.
  intros Hx. unfold report_one, p_report_one. set (sg := GenerateReportOperationSignature ord md5 o). cbn [fst].
  intros ([[c1 u1] r] & E1 & E2)%obind_ok_inv. destruct (ok_ticks Hx) as (_ & Hn & _). rewrite Hn.
  destruct (lookup_ok report_faithful Hx E1) as (x1 & -> & Hx1). cbn [obind fst snd] in *. destruct r as [a|].
  - apply obind_ok_inv in E2 as (i & -> & E2). cbn [obind]. apply obind_ok_inv in E2 as (i2 & -> & E2). cbn [obind]. apply obind_ok_inv in E2 as ([c3 u3] & E3 & E4).
    destruct (release_ok report_faithful Hx1 E3) as (x3 & -> & Hx3). cbn [obind]. destruct (TooBig i2).
    + exact (remove_ok report_faithful Hx3 E4).
    + injection E4 as <- <-. by eexists.
  - apply obind_ok_inv in E2 as (i & -> & E2). cbn [obind]. destruct (ok_ticks Hx1) as (_ & Hn1 & _). rewrite Hn1.
    exact (insert_ok report_faithful Hx1 E2).
Qed.
Lemma report_all_ok ops : forall x c u c' u', Ok_ x c -> ofold (report_one ord md5 clk cf) (c, u) ops = Ok (c', u') ->
  exists x', ofold (p_report_one ord md5 clk cf) (x, u) ops = Ok (x', u') /\ Ok_ x' c'.
Proof.
  induction ops as [|o ops IH]; intros x c u c' u' Hx; cbn; [intros [= <- <-]; by eexists|].
  intros ([c1 u1] & E1 & E2)%obind_ok_inv. destruct (report_one_ok _ _ Hx E1) as (x1 & -> & Hx1). cbn [obind]. by eapply IH.
Qed.
Lemma rstep_ok call p st st' res : rrel p st -> ReportAggSpec.rstep ord md5 clk cf call st = Ok (st', res) -> exists p', p_rstep ord md5 clk cf call p = Ok (p', res) /\ rrel p' st'.
Proof.
  destruct p as [x u], st as [c u']. intros [E Hx]. cbn [pra_pool ra_pool pra_cache ra_cache] in *. subst u'.
  destruct call as [q| |]; cbn [ReportAggSpec.rstep p_rstep].
  - unfold Report, PReport. cbn [pra_cache ra_cache pra_pool ra_pool]. destruct (negb _); [intros [= <- <-]; by eexists|].
    destruct (HasHighImportantOperation _); [intros [= <- <-]; by eexists|]. destruct c as [c|], x as [x|]; try done; [|intros [= <- <-]; by eexists].
    intros ([c3 u3] & E3 & E4)%obind_ok_inv. destruct (report_all_ok _ _ Hx E3) as (x3 & -> & Hx3). cbn [obind]. injection E4 as <- <-. by eexists.
  - unfold ReportAgg.Flush, PReportFlush. cbn [pra_cache ra_cache pra_pool ra_pool]. destruct c as [c|], x as [x|]; try done; [|intros [= <- <-]; by eexists].
    intros ([c3 u3] & E3 & E4)%obind_ok_inv. destruct (ok_ticks Hx) as (_ & Hn & _). rewrite Hn.
    destruct (expired_ok report_faithful Hx E3) as (x3 & -> & Hx3). cbn [obind]. injection E4 as <- <-. by eexists.
  - unfold ReportAgg.FlushAll, PReportFlushAll. cbn [pra_cache ra_cache pra_pool ra_pool]. destruct c as [c|], x as [x|]; try done; [|intros [= <- <-]; by eexists].
    intros ([c3 u3] & E3 & E4)%obind_ok_inv.
    destruct (remove_all_ok report_silent Hx E3) as (x3 & -> & Hx3). cbn [obind]. injection E4 as <- <-. by eexists.
Qed.
Lemma rdestroy_ok p st : rrel p st -> DestroyReportAggregator ord cf st = Ok tt -> PDestroyReport ord cf p = Ok tt.
Proof.
  intros Hr. unfold DestroyReportAggregator, PDestroyReport. intros ([st' res] & E1 & E2)%obind_ok_inv.
  destruct (rstep_ok RFlushAll Hr E1) as (p' & E3 & [_ Hx]). cbn [p_rstep] in E3. rewrite E3. cbn [obind fst] in *.
  destruct (pra_cache p') as [x|], (ra_cache st') as [c|]; try done. by eapply destroy_same.
Qed.

Lemma p_rcalls_snoc calls call p : p_report_calls ord md5 clk cf (calls ++ [call]) p =
  let! rs := p_report_calls ord md5 clk cf calls p in let! r := p_rstep ord md5 clk cf call rs.1 in Ok (r.1, rs.2 ++ [(call, r.2)]).
Proof.
  revert p. induction calls as [|a calls IH]; intros p; cbn.
  - destruct (p_rstep _ _ _ _ call p) as [[? ?]| | |]; done.
  - destruct (p_rstep _ _ _ _ a p) as [[p1 r1]| | |]; try done. cbn [obind fst snd]. rewrite IH. destruct (p_report_calls _ _ _ _ calls p1) as [[p2 r2]| | |]; try done. cbn [obind fst snd].
    destruct (p_rstep _ _ _ _ call p2) as [[p3 r3]| | |]; done.
Qed.
Lemma report_same st h : rreach ord md5 clk cf st h -> exists p, p_report_history ord md5 clk cf (rv_call <$> h) = Ok (p, rtold h) /\ rrel p st.
Proof.
  intros R. induction R as [st E|st h call st' res R (p & E & Hr) Hs].
  - destruct (rnew_ok E) as (p & E1 & Hp). exists p. split; [|done]. unfold p_report_history. by rewrite E1.
  - destruct (rstep_ok _ Hr Hs) as (p' & E1 & Hp). exists p'. split; [|done]. unfold p_report_history in *. destruct (PNewReportAggregator ord clk cf) as [p0| | |]; try done. cbn [obind] in *.
    rewrite fmap_app. cbn [fmap list_fmap rv_call]. rewrite p_rcalls_snoc, E. cbn [obind fst snd]. rewrite E1. cbn [obind fst snd]. unfold rtold. by rewrite fmap_app.
Qed.
End report.
