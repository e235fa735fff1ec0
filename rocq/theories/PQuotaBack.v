(** What the quota aggregator on the pointer-level cache does, the one on the list-level cache does too; and the memory
    between two calls. *)
From Verif Require Import Base Proto Signature OpAgg OpAggSpec Lru LruSpec LruSim Timeout Agg QuotaAgg QuotaAggSpec QuotaFuel QuotaSim QuotaStep QuotaStep2 QuotaTrace QuotaCall QuotaMove QuotaLife QuotaTerm.
From Verif Require Import LinkedList LinkedListProofs LinkLay PLru PLruProofs PLruRest PLruClaims PAgg PAggProofs PQuota PQuotaProofs PQuotaFuel PQuotaOwn.
From stdpp Require Import gmap list.
Local Open Scope Z_scope.
Set Implicit Arguments.

Section back.
Variable debug : bool.
Variable ord : hash_order.
Variable md5 : string -> string.
Variable clk : nat -> Z.
Variable cf : quota_config.
Hypothesis Hclk : proper_clock clk.
Notation mx := (qp_entries (qf_options cf)).
Notation idle := (idle_of cf).
Notation qreach := (qreach debug ord md5 clk cf).
Notation returns := (returns debug ord md5 clk cf).
Notation p_returns := (p_returns debug ord md5 clk cf).
Notation p_quota_history := (p_quota_history debug ord md5 clk cf).
Notation Good := (Good clk cf idle).

Lemma good_tidy c u l (x : plru nat) : Good c u l -> own [] [] (c, u) -> Ok_ x c -> exists rec, PAgg.tidy x (p_vals u) rec.
Proof.
  intros (L & R & Pf & _ & _) (_ & _ & O) (rec & D & -> & W). exists rec. pose proof (rep_shape R) as Sh. cbn [fst snd] in O.
  pose proof (sh_list Sh) as El. cbn [shape l_list] in El.
  assert (Hin : forall n e, p_heap x !! n = Some e <-> (n, e) ∈ L). { intros n e. pose proof (sh_heap Sh n e) as H. rewrite app_nil_r in H. exact H. }
  pose proof (sh_ids Sh) as Nd. rewrite app_nil_r in Nd.
  assert (Hp : map_to_list (p_heap x) ≡ₚ L).
  { apply NoDup_Permutation; [apply NoDup_map_to_list|by eapply NoDup_fmap_1|]. intros [n e]. rewrite elem_of_map_to_list. apply Hin. }
  destruct (wf_lay W) as [loose Rg]. destruct (@rng_walk _ _ [] 0 (S <$> rec) Rg) as [F B]; [cbn; left|]. rewrite app_nil_r in F, B.
  assert (Ev : (fun q : nat * elem nat => e_value q.2) <$> L = c_addr <$> l).
  { pose proof (rep_same R) as Fs. clear -Fs. induction Fs as [|p y L1 l1 Hs Fs IH]; [done|]. rewrite !fmap_cons. f_equal; [apply Hs|]. apply IH. }
  split.
  - done.
  - done.
  - intros n. rewrite (wf_dom W). rewrite El. split.
    + intros [e He]. apply Hin in He. apply elem_of_list_fmap. by exists (n, e).
    + intros H. apply elem_of_list_fmap in H as ([n' e] & -> & H). apply Hin in H. by eexists.
  - rewrite Hp. by rewrite El.
  - intros k n. pose proof (sh_table Sh k n) as T. cbn [shape l_table] in T. rewrite T. split; intros (e & He & K); exists e; split; [by apply Hin|done|by apply Hin|done].
  - intros n e He. apply Hin in He. unfold free_pins in Pf. rewrite Forall_forall in Pf. by apply (Pf (n, e)).
  - apply map_eq. intros k. rewrite lookup_empty, (wf_heads W). pose proof (sh_defer Sh) as Hd. cbn [shape l_defer] in Hd. by rewrite Hd, lookup_empty.
  - rewrite Hp, Ev. apply NoDup_Permutation; [apply R|apply NoDup_fst_map_to_list|]. intros a. split.
    + intros (y & -> & Hy)%elem_of_list_fmap. pose proof (rep_val R Hy) as Hv. apply elem_of_list_fmap. exists (c_addr y, c_elem y). split; [done|]. by apply elem_of_map_to_list.
    + intros ([a' e] & -> & He)%elem_of_list_fmap. apply elem_of_map_to_list in He. destruct (O a') as [X|(n & e0 & _ & Hn & <-)]; [by eexists|by apply elem_of_nil in X|].
      rewrite <- Ev. apply elem_of_list_fmap. exists (n, e0). split; [done|]. by apply Hin.
Qed.
Lemma reach_same st h p : qreach st h -> p_quota_history p (qtold h) -> qrel p st.
Proof. intros R H. destruct (quota_same R) as (p' & H' & Hr). destruct (history_same H' H eq_refl) as [-> _]. done. Qed.
Lemma quota_tidy st h p x : qreach st h -> p_quota_history p (qtold h) -> pqa_cache p = Some x -> exists rec, PAgg.tidy x (p_vals (pqa_pool p)) rec.
Proof.
  intros R H Ex. destruct (reach_same R H) as (Eu & _ & Hx). rewrite Ex in Hx. destruct (qg_cache st) as [c|] eqn:Ec; [|done].
  destruct (Z.le_gt_cases mx 0) as [Hm|Hm]; [destruct (reach_off Hm R) as [E _]; congruence|].
  destruct (reach_run Hclk Hm R) as (fl & tk & nx & l & Rn). destruct (qrun_good Rn) as (c1 & u1 & -> & G & _). cbn in Ec. injection Ec as ->.
  pose proof (reach_owned R) as O. rewrite Eu. by eapply good_tidy.
Qed.
Lemma quota_destroyed st h p : qreach st h -> p_quota_history p (qtold h) -> exists n, PDestroyQuota ord clk cf n p = Ok tt.
Proof. intros R H. destruct (destroy_returns Hclk R) as [n E]. exists n. eapply qdestroy_ok; [exact debug|exact md5|by apply (reach_same R H)|exact E]. Qed.

Lemma returns_sim call p st st' res : qrel p st -> returns call st (st', res) -> exists p', p_returns call p (p', res).
Proof. intros Hr [n E]. destruct (qstep_ok _ _ _ _ _ n call Hr E) as (p' & E' & _). exists p'. by exists n. Qed.
(** A Quota call that has room and returns at the pointer level returns at the list level. *)
Lemma quota_back st h p q r : qreach st h -> qrel p st -> (well_addressed cf q -> 0 < mx -> room md5 clk cf st h q) -> p_returns (QQuota q) p r -> exists r', returns (QQuota q) st r'.
Proof.
  intros Hr Hp Hroom [n Er]. destruct (addressed_dec cf q) as [Hw|Hw].
  2: { eexists. exists 0%nat. cbn [QuotaAggSpec.qstep]. by rewrite not_addressed. }
  destruct (Z.le_gt_cases mx 0) as [Hm|Hm].
  { destruct (reach_off Hm Hr) as [E _]. eexists. exists 0%nat. cbn [QuotaAggSpec.qstep]. unfold Quota. rewrite E. destruct Hw as [-> Ho]. rewrite String.eqb_refl. cbn [negb]. by destruct (qr_operation q). }
  specialize (Hroom Hw Hm). destruct (reach_run Hclk Hm Hr) as (fl & tk & nx & l & R). destruct (qrun_good R) as (c & u & -> & G & <- & <-).
  set (m := (n + (length l + 8))%nat). apply (upto_ok (@p_qstep_upto debug ord md5 clk cf n m (QQuota q) p ltac:(lia))) in Er.
  destruct (@quota_sim debug ord md5 clk cf idle Hclk Hm m q c u fl l G Hw ltac:(lia)) as [(a & x & b & El & Hk & Sm)|[Hk Sm]]; cbn zeta in Sm.
  - destruct (counted _ _ _) as [e| | |] eqn:Ec; [destruct Sm as (c' & u' & E & _); eexists; eexists; exact E|..].
    all: exfalso; clear Sm; destruct (@expired ord clk cf idle Hclk fl m c u l G ltac:(lia)) as (c1 & u1 & L1 & E & R1 & P1 & _ & _ & Tk & It & _); rewrite El in R1;
      destruct (@lookup_hit clk mx idle _ _ _ _ _ _ _ _ _ _ E R1 P1 Hk) as (c2 & La & p0 & Lb & E2 & _ & _ & Tk2 & R2);
      destruct p as [xx uu ff]; destruct Hp as (Eu & Ef & Hx); cbn [pqa_pool qg_pool pqa_flush_all qg_flush_all pqa_cache qg_cache] in *; subst uu ff; destruct xx as [xx|]; [|done];
      cbn [p_qstep] in Er; unfold PQuota in Er; destruct Hw as [Hs Ho]; rewrite Hs, String.eqb_refl in Er; cbn [negb pqa_cache pqa_pool pqa_flush_all] in Er; destruct (qr_operation q) as [o|]; [|done];
      destruct (lookup_ok (quota_faithful ord clk cf fl m) Hx E2) as (x1 & E3 & Hx1); unfold qsig in E3; rewrite E3 in Er; cbn [obind fst snd] in Er;
      rewrite (deref_some _ _ (rep_val R2 (x:=x) ltac:(set_solver))) in Er; cbn [obind] in Er; cbn zeta in Er;
      unfold counted, looked, refreshed in Ec; rewrite <- Tk, <- Tk2 in Ec;
      unfold PShouldRefresh in Er; change (p_now clk (p_ticked x1)) with (clk (S (p_tick x1))) in Er; change (p_now clk x1) with (clk (p_tick x1)) in Er;
      assert (Et : p_tick x1 = l_tick c2) by (destruct Hx1 as (? & ? & -> & _); done); rewrite Et in Er;
      destruct (qe_in_flight (c_elem x)); cbn [negb fst snd] in *; [by rewrite Ec in Er|]; destruct (_ <=? _); cbn [fst snd] in *; by rewrite Ec in Er.
  - pose proof (room_inserts Hclk Hm G R Hroom Hk) as Hi. destruct (insert_new _ _ _ _ _ _ _ _ _ _) as [[[l' tk'] it']|]; [|done]. destruct Sm as (c' & u' & E & _). eexists; eexists; exact E.
Qed.
Lemma step_same st h p call : qreach st h -> p_quota_history p (qtold h) -> (forall q, call = QQuota q -> well_addressed cf q -> 0 < mx -> room md5 clk cf st h q) ->
  forall res, (exists p', p_returns call p (p', res)) <-> (exists st', returns call st (st', res)).
Proof.
  intros R H Hroom res. pose proof (reach_same R H) as Hr. split.
  2: { intros (st' & E). by eapply returns_sim. }
  intros (p' & E). assert (exists r', returns call st r') as [[st' res'] E'].
  { destruct call as [q| | |]; [|by eapply other_calls..]. eapply quota_back; [exact R|exact Hr| |exact E]. by apply Hroom. }
  destruct (returns_sim Hr E') as [p2 E2]. pose proof (p_returns_same E E2) as [= _ <-]. by exists st'.
Qed.
Lemma quota_complete st h p call : qreach st h -> p_quota_history p (qtold h) -> (forall q, call = QQuota q -> well_addressed cf q -> 0 < mx -> room md5 clk cf st h q) ->
  (exists r, p_returns call p r /\ forall n, p_qstep debug ord md5 clk cf n call p = OutOfFuel \/ p_qstep debug ord md5 clk cf n call p = Ok r) \/
  (exists q first rest, call = QQuota q /\ (first :: rest) `sublist_of` asked h ++ [qop_get (qr_operation q)] /\ forall o, quota_aggregate debug ord first rest <> Ok o).
Proof.
  intros R H Hroom. pose proof (reach_same R H) as Hr.
  assert (G : forall r', returns call st r' -> exists r, p_returns call p r /\ forall n, p_qstep debug ord md5 clk cf n call p = OutOfFuel \/ p_qstep debug ord md5 clk cf n call p = Ok r).
  { intros [st' res] E. destruct (returns_sim Hr E) as [p' E']. exists (p', res). split; [exact E'|]. intros n. destruct E' as [m E']. destruct (Nat.le_ge_cases n m) as [L|L].
    - rewrite <- E'. by apply (p_qstep_upto debug ord md5 clk cf).
    - right. by eapply upto_ok; [apply p_qstep_upto|]. }
  destruct call as [q| | |].
  2-4: left; match type of G with forall r', QuotaAggSpec.returns _ _ _ _ _ ?cl _ _ -> _ => destruct (@other_calls debug ord md5 clk cf Hclk st h cl R) as [r' E]; [done|by eapply G] end.
  destruct (quota_returns Hclk R (Hroom q eq_refl)) as [[r' E]|(f & r & S & X)]; [left; by eapply G|]. right. by exists q, f, r.
Qed.
End back.
