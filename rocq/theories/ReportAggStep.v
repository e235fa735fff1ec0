(** The calls of the report aggregator keep the invariant. *)
From Verif Require Import Base Proto Signature OpAgg OpAggSpec OpAggProofs Lru LruSim LruOps LruOps2 LruSpec Timeout TimeoutSign Agg AggCache OpGroups ReportAgg ReportAggSpec ReportAggProofs ReportAggInv.
From stdpp Require Import gmap list.
Local Open Scope Z_scope.
Set Implicit Arguments.

Section step.
Variable ord : hash_order.
Variable md5 : string -> string.
Variable clk : nat -> Z.
Variable cf : report_config.
Hypothesis Hclk : proper_clock clk.
Variable idle : Z.
Notation cell := (nat * ent opagg)%type.
Notation top := (Z * operation)%type.
Notation gone := (removed_report ord cf).
Notation mx := (ro_entries (rc_options cf)).
Notation Rp := (ARep clk mx idle false).
Notation fresh := (fresh_cells idle).
Notation stale := (stale_cells idle).
Notation tch := (touch clk false).
Notation sg := (rsig ord md5).
Notation kinds := (rc_kinds cf).
Notation emits := (fun p : cell => ToOperationProto ord (n_val p.2)).
Notation RA := (RAcc ord md5 kinds).
Implicit Types (c : lru nat) (u : pool opagg report_request) (l gs : list cell) (p : cell) (G : nat -> list top) (fg : list (string * list top)) (T tl : list top)
  (o : operation) (fl : list operation) (items : list report_request).
Let Hmono := proj1 Hclk.
Let Hpos := proj2 Hclk.

Lemma filter_sub {A} (Q : A -> Prop) `{!forall x, Decision (Q x)} (xs : list A) : filter Q xs `sublist_of` xs.
Proof. induction xs as [|x xs IH]; [constructor|]. rewrite filter_cons. destruct (decide (Q x)); by constructor. Qed.

(** *** the batches *)
Record batch_ok (full : bool) (q : report_request) : Prop := {
  bo_service : rr_service q = rc_service cf;
  bo_config : rr_config q = rc_config_id cf;
  bo_some : (1 <= length (rr_operations q) <= 10)%nat;
  bo_full : full = true -> length (rr_operations q) = 10%nat }.
Definition packed items : Prop := items = [] \/ exists full q, items = full ++ [q] /\ Forall (batch_ok true) full /\ batch_ok false q.

Lemma ops_app a b : ops_of (a ++ b) = ops_of a ++ ops_of b.
Proof. apply bind_app. Qed.
Lemma packed_add v items : packed items -> packed (gone v items) /\ ops_of (gone v items) = ops_of items ++ [ToOperationProto ord v].
Proof.
  unfold removed_report, add_item. intros [->|(full & q & -> & F & B)].
  - cbn [last app]. split; [|done]. right. exists [], (ReportRequest (rc_service cf) [ToOperationProto ord v] (rc_config_id cf)).
    split; [done|]. split; [constructor|]. split; cbn; [done|done|lia|done].
  - rewrite last_snoc. destruct B as [B1 B2 B3 _]. unfold MergeItem. cbn [rr_service rr_operations length]. rewrite B1, String.eqb_refl. cbn [negb orb].
    unfold kMaxOperationsToSend. destruct (Nat.ltb 10 (length (rr_operations q) + 1)) eqn:E.
    + apply Nat.ltb_lt in E. split; [|by rewrite ops_app]. right. eexists (full ++ [q]), _. split; [done|]. split.
      * apply Forall_app. split; [done|]. constructor; [|constructor]. split; [done|done|done|lia].
      * split; cbn; [done|done|lia|done].
    + apply Nat.ltb_ge in E. rewrite removelast_last. split.
      * right. eexists full, _. split; [done|]. split; [done|]. unfold MergeFrom. split; cbn [rr_service rr_config rr_operations].
        -- by destruct (String.eqb_spec (rc_service cf) "").
        -- by destruct (String.eqb_spec (rc_config_id cf) "").
        -- rewrite app_length. cbn. lia.
        -- done.
      * rewrite !ops_app. cbn. by rewrite !app_nil_r, app_assoc.
Qed.
Lemma packed_emit gs items : packed items -> packed (emit gone gs items) /\ ops_of (emit gone gs items) = ops_of items ++ (emits <$> gs).
Proof.
  revert items. induction gs as [|p gs IH]; intros items H; [cbn; by rewrite app_nil_r|]. destruct (packed_add (n_val p.2) H) as [H1 H2].
  cbn [emit foldl]. destruct (IH _ H1) as [H3 H4]. split; [done|]. unfold emit in H4. rewrite H4, H2, <- app_assoc. done.
Qed.

(** *** one operation *)
Definition tagged (a b : nat) (x : top) : Prop := 0 <= idle -> exists i, (a <= i < b)%nat /\ x.1 = clk i.
(** why a group may be flushed before it is asked for, when there is room *)
Definition due (a b : nat) (g : list top) : Prop :=
  (exists x r i, g = x :: r /\ (a <= i < b)%nat /\ 0 <= idle /\ idle < clk i - x.1) \/ (100 <= logs_in g.*2)%nat.
Definition fits T : Prop := exists ks, Z.of_nat (length ks) <= mx /\ forall x, x ∈ T -> sg x.2 ∈ ks.
Lemma fits_mono T T' : fits (T ++ T') -> fits T.
Proof. intros (ks & H1 & H2). exists ks. split; [done|]. intros x Hx. apply H2, elem_of_app. by left. Qed.

Lemma stale_due c u l G fg T fl : Rp c u l -> RA G fg l T fl -> Forall (due (l_tick c) (l_tick c + reads idle)) (take_groups G (stale (clk (l_tick c)) l)).*2.
Proof.
  intros R A. apply Forall_fmap, Forall_fmap. apply Forall_forall. intros p Hp. cbn [fst snd].
  assert (Hpl : p ∈ l). { rewrite <- (stale_fresh idle (clk (l_tick c)) l). apply elem_of_app. by left. }
  pose proof (ra_cells A) as C. rewrite Forall_forall in C. destruct (C p Hpl) as [_ _ (x & r & E & Ex) _].
  unfold stale_cells in Hp. destruct (0 <=? idle) eqn:Ei; [|by apply elem_of_nil in Hp]. apply Z.leb_le in Ei.
  rewrite <- Permutation_rev in Hp. apply elem_of_list_filter in Hp as [Hp _].
  left. exists x, r, (l_tick c). split; [done|]. unfold reads. rewrite (proj2 (Z.leb_le 0 idle) Ei). split; [lia|]. split; [done|]. rewrite Ex. lia.
Qed.

Lemma keys_fit G fg l T fl k : RA G fg l T fl -> NoDup (n_key <$> l.*2) -> k ∉ n_key <$> l.*2 -> (exists o t, sg o = k /\ fits (T ++ [(t, o)])) -> Z.of_nat (length l) + 1 <= mx.
Proof.
  intros A N Hk (o & t & Eo & ks & F1 & F2). assert (NoDup (k :: (n_key <$> l.*2))) as N' by (by constructor).
  assert (k :: (n_key <$> l.*2) ⊆+ ks) as S.
  { apply NoDup_submseteq; [done|]. intros x Hx. apply elem_of_cons in Hx as [->|Hx].
    - rewrite <- Eo. apply (F2 (t, o)). apply elem_of_app. right. left.
    - apply elem_of_list_fmap in Hx as (e & -> & He). apply elem_of_list_fmap in He as (p & -> & Hp).
      destruct (keys_known A Hp) as (x & Hx & <-). apply F2, elem_of_app. by left. }
  apply submseteq_length in S. cbn [length] in S. rewrite !fmap_length in S. lia.
Qed.

Lemma one_step c u l G fg T fl o : Rp c u l -> packed (p_items u) -> RA G fg l T (fl ++ ops_of (p_items u)) ->
  (exists c' u' l' G' ng tag, report_one ord md5 clk cf (c, u) o = Ok (c', u') /\
     Rp c' u' l' /\ packed (p_items u') /\ RA G' (fg ++ ng) l' (T ++ [(tag, o)]) (fl ++ ops_of (p_items u')) /\
     (l_tick c <= l_tick c')%nat /\ tagged (l_tick c) (l_tick c') (tag, o) /\
     (0 <= idle -> Forall (fun p => clk (l_tick c) - idle <= n_last p.2) l') /\
     (fits (T ++ [(tag, o)]) -> Forall (due (l_tick c) (l_tick c')) ng.*2)) \/
  ((forall r, report_one ord md5 clk cf (c, u) o <> Ok r) /\ exists first rest, (first :: rest) `sublist_of` T.*2 ++ [o] /\ forall x, aggregate ord md5 kinds first rest <> Ok x).
Proof.
  intros R P A. set (t := l_tick c) in *. set (l1 := fresh (clk t) l).
  pose proof (stale_fresh idle (clk t) l) as SP. fold l1 in SP.
  assert (Nk1 : NoDup (n_key <$> l1.*2)).
  { pose proof (ar_keys R) as Nk. rewrite <- SP in Nk. rewrite !fmap_app in Nk. by apply NoDup_app in Nk as (_ & _ & ?). }
  assert (Na1 : NoDup l1.*1).
  { pose proof (ar_addrs R) as Na. rewrite <- SP in Na. rewrite !fmap_app in Na. by apply NoDup_app in Na as (_ & _ & ?). }
  assert (Hfresh : 0 <= idle -> Forall (fun p => clk t - idle <= n_last p.2) l1).
  { intros Hi. unfold l1, fresh_cells. rewrite (proj2 (Z.leb_le 0 idle) Hi). apply Forall_forall. intros p Hp. by apply elem_of_list_filter in Hp as [? _]. }
  assert (Hl1 : Z.of_nat (length l1) <= mx).
  { etrans; [|exact (ar_len R)]. pose proof (sublist_length _ _ (fresh_sub idle (clk t) l)) as Hsl. fold l1 in Hsl. lia. }
  assert (A1 : RA G (fg ++ take_groups G (stale (clk t) l)) l1 T (fl ++ ops_of (emit gone (stale (clk t) l) (p_items u)))).
  { destruct (packed_emit (stale (clk t) l) P) as [_ ->]. rewrite app_assoc. eapply racc_remove; [exact A|by apply (ar_keys R)|by symmetry]. }
  pose proof (stale_due R A) as Hdue. fold t in Hdue.
  destruct (packed_emit (stale (clk t) l) P) as [P1 P2].
  assert (Hbuilt : forall p, p ∈ l1 -> built ord md5 kinds (Some (n_val p.2)) (G p.1).*2 /\ (G p.1).*2 `sublist_of` T.*2).
  { intros p Hp. pose proof (ra_cells A1) as C. rewrite Forall_forall in C. destruct (C p Hp) as [C1 _ _ _]. split; [done|].
    pose proof (ra_split A1 (n_key p.2)) as S. rewrite (key_filter Nk1 Hp) in S. csimpl in S. rewrite app_nil_r in S. apply fmap_sublist.
    etrans; [|apply (filter_sub (fun x : top => sg x.2 = n_key p.2))]. rewrite <- S. by apply sublist_inserts_l. }
  destruct (run_one ord md5 cf Hclk o R) as [(Hk & HM)|(p & Hp & Ek & HM)]; fold t l1 in HM.
  - fold t l1 in Hk. destruct (NewOperationAggregator ord md5 kinds o) as [a| | |] eqn:Ea.
    + left. destruct HM as (c' & u' & x & E1 & E2 & E3 & E4). set (t1 := (t + reads idle)%nat) in *.
      set (dr := rev (drop (room mx) l1)) in *. set (l2 := take (room mx) l1) in *.
      assert (Hdrop : l1 ≡ₚ dr ++ l2). { unfold dr, l2. rewrite <- Permutation_rev, Permutation_app_comm. by rewrite take_drop. }
      destruct (packed_emit dr P1) as [P3 P4].
      pose proof (@racc_remove _ _ _ _ _ _ _ _ _ _ A1 Nk1 Hdrop) as A2. rewrite <- (app_assoc fl), <- P4 in A2.
      assert (Hk2 : sg o ∉ n_key <$> l2.*2). { intros X. apply Hk. rewrite Hdrop. rewrite !fmap_app. apply elem_of_app. by right. }
      assert (Ha2 : x ∉ l2.*1). { pose proof (ar_addrs E2) as Na. csimpl in Na. by apply NoDup_cons in Na as [? _]. }
      pose proof (@racc_new _ _ _ _ _ _ _ _ _ _ _ (clk t1) A2 Ha2 Hk2 Ea) as A3.
      exists c', u', ((x, Ent (sg o) a (clk t1)) :: l2), (upd G x [(clk t1, o)]), (take_groups G (stale (clk t) l) ++ take_groups G dr), (clk t1).
      split; [done|]. split; [exact E2|]. rewrite E4. split; [done|]. split; [by rewrite app_assoc|]. rewrite E3. split; [lia|]. split.
      { intros _. exists t1. split; [unfold t1; lia|done]. }
      split.
      { intros Hi. constructor.
        - cbn. pose proof (Hmono (Nat.le_add_r t (reads idle))). fold t1 in H. lia.
        - specialize (Hfresh Hi). rewrite Hdrop in Hfresh. by apply Forall_app in Hfresh as [_ ?]. }
      intros Hf. rewrite fmap_app. apply Forall_app. split.
      * eapply Forall_impl; [exact Hdue|]. intros g [(y & r & i & H1 & H2 & H3)|H]; [left|by right]. exists y, r, i. split; [done|]. split; [lia|done].
      * assert (dr = []) as ->; [|constructor]. unfold dr. rewrite drop_ge; [done|].
        assert (Z.of_nat (length l1) + 1 <= mx) as Hr.
        { eapply keys_fit; [exact A1|done|exact Hk|]. exists o, (clk t1). done. }
        unfold room. lia.
    + right. split; [done|]. exists o, []. split; [by apply sublist_inserts_l|]. intros x. unfold aggregate. by rewrite Ea.
    + right. split; [done|]. exists o, []. split; [by apply sublist_inserts_l|]. intros x. unfold aggregate. by rewrite Ea.
    + right. split; [done|]. exists o, []. split; [by apply sublist_inserts_l|]. intros x. unfold aggregate. by rewrite Ea.
  - fold t l1 in Hp. destruct (MergeOperation ord md5 kinds o (n_val p.2)) as [a| | |] eqn:Ea.
    + left. destruct HM as (c' & u' & E1 & E3 & HM). set (t1 := (t + reads idle)%nat) in *.
      assert (Hpt : n_last p.2 <= clk t).
      { pose proof (ar_past R) as F. rewrite Forall_forall in F. apply (F p). rewrite <- SP. apply elem_of_app. by right. }
      assert (Htag : tagged t t1 (clk t, o)). { intros Hi. exists t. split; [|done]. unfold t1, reads. rewrite (proj2 (Z.leb_le 0 idle) Hi). lia. }
      destruct (TooBig a) eqn:Eb; destruct HM as [E2 E4].
      * destruct (@racc_merge_big _ _ _ _ _ _ _ _ _ _ _ (clk t) A1 Nk1 Hp Ek Ea) as [A2 Hlogs].
        destruct (packed_emit [(p.1, Ent (sg o) a (n_last p.2))] P1) as [P3 P4]. cbn [fmap list_fmap snd n_val] in P4.
        rewrite <- (app_assoc fl), <- P4, <- E4 in A2.
        exists c', u', (filter (fun q => n_key q.2 <> sg o) l1), G, (take_groups G (stale (clk t) l) ++ [(sg o, G p.1 ++ [(clk t, o)])]), (clk t).
        split; [done|]. split; [done|]. split; [by rewrite E4|]. split; [by rewrite app_assoc|]. rewrite E3. split; [lia|]. split; [done|]. split.
        -- intros Hi. specialize (Hfresh Hi). rewrite Forall_forall in Hfresh. apply Forall_forall. intros q Hq. apply elem_of_list_filter in Hq as [_ Hq]. auto.
        -- intros _. rewrite fmap_app. apply Forall_app. split; [done|]. constructor; [|constructor]. right. cbn [snd]. rewrite Hlogs.
           unfold TooBig, kMaxLogEntries in Eb. by apply Nat.leb_le in Eb.
      * pose proof (@racc_merge _ _ _ clk _ _ _ _ _ _ _ _ (clk t) t1 A1 Nk1 Na1 Hp Ek Ea Eb Hpt) as A2. rewrite <- E4 in A2.
        exists c', u', (tch (sg o) a t1 l1). eexists _, _, (clk t). split; [done|]. split; [done|]. split; [by rewrite E4|]. split; [exact A2|]. rewrite E3. split; [lia|]. split; [done|]. split; [|done].
        intros Hi. specialize (Hfresh Hi). rewrite Forall_forall in Hfresh. apply Forall_forall. intros q Hq. rewrite <- Ek in Hq.
        apply (touch_in clk false a t1 Nk1 Hp) in Hq as [->|[Hq _]]; [|auto]. cbn. by apply (Hfresh p).
    + right. split; [done|]. destruct (Hbuilt p Hp) as [B1 B2]. pose proof (built_absorb ord md5 kinds _ _ o B1) as X. cbn [absorb1] in X. rewrite Ea in X.
      destruct X as (f0 & r0 & E & X). exists f0, r0. split; [rewrite <- E; by apply sublist_app|done].
    + right. split; [done|]. destruct (Hbuilt p Hp) as [B1 B2]. pose proof (built_absorb ord md5 kinds _ _ o B1) as X. cbn [absorb1] in X. rewrite Ea in X.
      destruct X as (f0 & r0 & E & X). exists f0, r0. split; [rewrite <- E; by apply sublist_app|done].
    + right. split; [done|]. destruct (Hbuilt p Hp) as [B1 B2]. pose proof (built_absorb ord md5 kinds _ _ o B1) as X. cbn [absorb1] in X. rewrite Ea in X.
      destruct X as (f0 & r0 & E & X). exists f0, r0. split; [rewrite <- E; by apply sublist_app|done].
Qed.

(** *** the operations of one request *)
Lemma due_mono a b a' b' g : (a' <= a)%nat -> (b <= b')%nat -> due a b g -> due a' b' g.
Proof. intros H1 H2 [(x & r & i & E1 & E2 & E3)|H]; [left|by right]. exists x, r, i. split; [done|]. split; [lia|done]. Qed.
Lemma tagged_mono a b a' b' x : (a' <= a)%nat -> (b <= b')%nat -> tagged a b x -> tagged a' b' x.
Proof. intros H1 H2 H Hi. destruct (H Hi) as (i & ? & ?). exists i. split; [lia|done]. Qed.

Lemma all_steps ops : forall c u l G fg T fl, Rp c u l -> packed (p_items u) -> RA G fg l T (fl ++ ops_of (p_items u)) ->
  (exists c' u' l' G' ng tl, ofold (report_one ord md5 clk cf) (c, u) ops = Ok (c', u') /\ tl.*2 = ops /\
     Rp c' u' l' /\ packed (p_items u') /\ RA G' (fg ++ ng) l' (T ++ tl) (fl ++ ops_of (p_items u')) /\
     (l_tick c <= l_tick c')%nat /\ Forall (tagged (l_tick c) (l_tick c')) tl /\
     (forall s, 0 <= idle -> s <= clk (l_tick c) -> (ops = [] -> Forall (fun p => s - idle <= n_last p.2) l) -> Forall (fun p => s - idle <= n_last p.2) l') /\
     (fits (T ++ tl) -> Forall (due (l_tick c) (l_tick c')) ng.*2)) \/
  ((forall r, ofold (report_one ord md5 clk cf) (c, u) ops <> Ok r) /\ exists first rest, (first :: rest) `sublist_of` T.*2 ++ ops /\ forall x, aggregate ord md5 kinds first rest <> Ok x).
Proof.
  induction ops as [|o ops IH]; intros c u l G fg T fl R P A.
  - left. exists c, u, l, G, [], []. rewrite !app_nil_r. do 6 (split; [done|]). split; [constructor|]. split; [by auto|constructor].
  - cbn [ofold]. destruct (one_step fl o R P A) as [(c1 & u1 & l1 & G1 & ng1 & tag & E1 & R1 & P1 & A1 & L1 & T1 & F1 & D1)|[E1 (f0 & r0 & S1 & S2)]].
    + rewrite E1. cbn [obind]. destruct (IH c1 u1 l1 G1 _ _ fl R1 P1 A1) as [(c2 & u2 & l2 & G2 & ng2 & tl & E2 & Et & R2 & P2 & A2 & L2 & T2 & F2 & D2)|[E2 (f0 & r0 & S1 & S2)]].
      * left. exists c2, u2, l2, G2, (ng1 ++ ng2), ((tag, o) :: tl). split; [done|]. split; [csimpl; by rewrite Et|]. split; [done|]. split; [done|].
        rewrite <- !app_assoc in A2. cbn [app] in A2. split; [done|]. split; [lia|]. split.
        { constructor; [eapply tagged_mono; [| |exact T1]; lia|]. eapply Forall_impl; [exact T2|]. intros x Hx. eapply tagged_mono; [| |exact Hx]; lia. }
        split.
        { intros s Hi Hs _. pose proof (Hmono L1) as Hm. apply F2; [done|lia|]. intros _. eapply Forall_impl; [exact (F1 Hi)|]. intros p Hp. cbn in Hp |- *. lia. }
        intros Hf. rewrite <- app_assoc in D2. cbn [app] in D2. rewrite fmap_app. apply Forall_app. split.
        -- eapply Forall_impl; [apply D1|]. { eapply fits_mono. rewrite <- app_assoc. exact Hf. } intros g Hg. eapply due_mono; [| |exact Hg]; lia.
        -- eapply Forall_impl; [by apply D2|]. intros g Hg. eapply due_mono; [| |exact Hg]; lia.
      * right. split; [done|]. exists f0, r0. split; [|done]. rewrite fmap_app, <- app_assoc in S1. exact S1.
    + right. split.
      * intros r X. destruct (report_one ord md5 clk cf (c, u) o) as [w| | |] eqn:E; try done. by destruct (E1 w).
      * exists f0, r0. split; [|done]. etrans; [exact S1|]. apply sublist_app; [done|]. apply sublist_skip, sublist_nil_l.
Qed.
End step.
