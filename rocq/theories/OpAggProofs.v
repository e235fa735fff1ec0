(** Proofs about operation aggregation. *)
From Verif Require Import Proto Signature SignatureProofs Distribution DistributionSpec DistributionProofs OpAgg OpAggSpec.

(** ** generic *)
Lemma ofold_app {A B} (f : A -> B -> outcome A) a l1 l2 :
  ofold f a (l1 ++ l2) = let! a' := ofold f a l1 in ofold f a' l2.
Proof. revert a. induction l1 as [|x l1 IH]; intros a; cbn [ofold app]; [done|]. destruct (f a x); cbn [obind]; auto. Qed.
Lemma filter_ext_in {A} (P Q : A -> Prop) `{!forall x, Decision (P x), !forall x, Decision (Q x)} (l : list A) :
  (forall x, x ∈ l -> P x <-> Q x) -> filter P l = filter Q l.
Proof.
  induction l as [|x l IH]; intros HPQ; [done|]. rewrite !filter_cons.
  assert (P x <-> Q x) by (apply HPQ; constructor).
  assert (filter P l = filter Q l) as E by (apply IH; intros y Hy; apply HPQ; by constructor).
  rewrite E. destruct (decide (P x)), (decide (Q x)); tauto || done.
Qed.
Lemma filter_nil_iff {A} (P : A -> Prop) `{!forall x, Decision (P x)} (l : list A) :
  (forall x, x ∈ l -> ~ P x) -> filter P l = [].
Proof.
  induction l as [|x l IH]; intros Hl; [done|]. rewrite filter_cons_False by (apply Hl; constructor).
  apply IH. intros y Hy. apply Hl. by constructor.
Qed.
Lemma filter_bind {A B} (P : B -> Prop) `{!forall x, Decision (P x)} (f : A -> list B) (l : list A) :
  filter P (l ≫= f) = l ≫= fun x => filter P (f x).
Proof. induction l as [|x l IH]; [done|]. rewrite !bind_cons, filter_app, IH. done. Qed.

(** ** timestamps *)
Lemma before_iff a b : TimestampBefore a b = true <-> ts_lt a b.
Proof. unfold TimestampBefore, ts_lt. rewrite orb_true_iff, andb_true_iff, Z.eqb_eq, !Z.ltb_lt. done. Qed.
Lemma before_false a b : TimestampBefore a b = false <-> ~ ts_lt a b.
Proof. rewrite <- before_iff. by destruct (TimestampBefore a b). Qed.
Lemma ts_not_lt_trans a b c : ~ ts_lt b a -> ~ ts_lt c b -> ~ ts_lt c a.
Proof. unfold ts_lt. lia. Qed.
Lemma ts_lt_irrefl a : ~ ts_lt a a.
Proof. unfold ts_lt. lia. Qed.
Lemma ts_lt_asym a b : ts_lt a b -> ~ ts_lt b a.
Proof. unfold ts_lt. lia. Qed.
Lemma ts_total a b : ~ ts_lt a b -> ~ ts_lt b a -> a = b.
Proof. destruct a, b. unfold ts_lt. cbn. intros. f_equal; lia. Qed.

Lemma earliest_snoc l r x : earliest l r -> earliest (l ++ [x]) (merge_start x r).
Proof.
  unfold earliest. destruct x as [f|], r as [t|]; cbn [merge_start].
  - intros [H1 H2]. destruct (TimestampBefore f t) eqn:E.
    + apply before_iff in E. split; [apply elem_of_app; right; constructor|].
      intros t' [H|H%elem_of_list_singleton]%elem_of_app; [|simplify_eq; apply ts_lt_irrefl].
      apply (ts_not_lt_trans f t t'); [by apply ts_lt_asym|auto].
    + apply before_false in E. split; [apply elem_of_app; auto|].
      intros t' [H|H%elem_of_list_singleton]%elem_of_app; [auto|by simplify_eq].
  - intros H. split; [apply elem_of_app; right; constructor|].
    intros t' [H'|H'%elem_of_list_singleton]%elem_of_app; [by apply H in H'|simplify_eq; apply ts_lt_irrefl].
  - intros [H1 H2]. split; [apply elem_of_app; auto|].
    intros t' [H|H%elem_of_list_singleton]%elem_of_app; [auto|done].
  - intros H x' [H'|H'%elem_of_list_singleton]%elem_of_app; auto.
Qed.
Lemma latest_snoc l r x : latest l r -> latest (l ++ [x]) (merge_end x r).
Proof.
  unfold latest. destruct x as [f|], r as [t|]; cbn [merge_end].
  - intros [H1 H2]. destruct (TimestampBefore t f) eqn:E.
    + apply before_iff in E. split; [apply elem_of_app; right; constructor|].
      intros t' [H|H%elem_of_list_singleton]%elem_of_app; [|simplify_eq; apply ts_lt_irrefl].
      apply (ts_not_lt_trans t' t f); [auto|by apply ts_lt_asym].
    + apply before_false in E. split; [apply elem_of_app; auto|].
      intros t' [H|H%elem_of_list_singleton]%elem_of_app; [auto|by simplify_eq].
  - intros H. split; [apply elem_of_app; right; constructor|].
    intros t' [H'|H'%elem_of_list_singleton]%elem_of_app; [by apply H in H'|simplify_eq; apply ts_lt_irrefl].
  - intros [H1 H2]. split; [apply elem_of_app; auto|].
    intros t' [H|H%elem_of_list_singleton]%elem_of_app; [auto|done].
  - intros H x' [H'|H'%elem_of_list_singleton]%elem_of_app; auto.
Qed.
Lemma earliest_single x : earliest [x] x.
Proof.
  destruct x as [t|]; cbn.
  - split; [constructor|]. intros t' H%elem_of_list_singleton. simplify_eq. apply ts_lt_irrefl.
  - intros x H%elem_of_list_singleton. done.
Qed.
Lemma latest_single x : latest [x] x.
Proof.
  destruct x as [t|]; cbn.
  - split; [constructor|]. intros t' H%elem_of_list_singleton. simplify_eq. apply ts_lt_irrefl.
  - intros x H%elem_of_list_singleton. done.
Qed.
Lemma earliest_unique l1 l2 r1 r2 : (forall x, x ∈ l1 <-> x ∈ l2) -> earliest l1 r1 -> earliest l2 r2 -> r1 = r2.
Proof.
  intros E. destruct r1 as [t1|], r2 as [t2|]; cbn; intros H1 H2; [|..|done].
  - destruct H1 as [H1 H1'], H2 as [H2 H2']. f_equal. apply ts_total; [apply H2'; by apply E|apply H1'; by apply E].
  - destruct H1 as [H1 _]. by apply E, H2 in H1.
  - destruct H2 as [H2 _]. by apply E, H1 in H2.
Qed.
Lemma latest_unique l1 l2 r1 r2 : (forall x, x ∈ l1 <-> x ∈ l2) -> latest l1 r1 -> latest l2 r2 -> r1 = r2.
Proof.
  intros E. destruct r1 as [t1|], r2 as [t2|]; cbn; intros H1 H2; [|..|done].
  - destruct H1 as [H1 H1'], H2 as [H2 H2']. f_equal. apply ts_total; [apply H1'; by apply E|apply H2'; by apply E].
  - destruct H1 as [H1 _]. by apply E, H2 in H1.
  - destruct H2 as [H2 _]. by apply E, H1 in H2.
Qed.

Section key.
Context (ord : hash_order) (md5 : string -> string) (kinds : option (gmap string metric_kind)).
Notation sig := (GenerateReportMetricValueSignature ord md5).

(** what happens to one key *)
Definition kstep (kind : metric_kind) (cur : option metric_value) (v : metric_value) : outcome (option metric_value) :=
  match cur with
  | None => Ok (Some v)
  | Some e => let! r := MergeMetricValue kind v e in Ok (Some r)
  end.
Notation kfold kind := (ofold (kstep kind)).
Definition look (st : gmap string (gmap string metric_value)) name sg := st !! name ≫= fun m => m !! sg.

Lemma values_look kind m vs m' : ofold (merge_value ord md5 kind) m vs = Ok m' ->
  forall sg, kfold kind (m !! sg) (filter (fun v => sig v = sg) vs) = Ok (m' !! sg).
Proof.
  revert m. induction vs as [|v vs IH]; intros m H sg; cbn [ofold] in H; [by simplify_eq|].
  destruct (merge_value ord md5 kind m v) as [m1| | |] eqn:E; try discriminate. cbn [obind] in H.
  specialize (IH _ H sg). rewrite filter_cons. unfold merge_value in E.
  destruct (decide (sig v = sg)) as [Hs|Hs].
  - subst sg. cbn [ofold]. destruct (m !! sig v) as [e|] eqn:El; cbn [kstep].
    + destruct (MergeMetricValue kind v e) as [r| | |]; try discriminate. cbn [obind] in *. simplify_eq.
      by rewrite lookup_insert in IH.
    + simplify_eq. by rewrite lookup_insert in IH.
  - assert (m1 !! sg = m !! sg) as <-; [|done].
    destruct (m !! sig v); [destruct (MergeMetricValue _ _ _); try discriminate; cbn [obind] in E|];
      simplify_eq; by rewrite lookup_insert_ne.
Qed.
Lemma values_ok kind m vs :
  (forall sg, is_ok (kfold kind (m !! sg) (filter (fun v => sig v = sg) vs)) = true) ->
  exists m', ofold (merge_value ord md5 kind) m vs = Ok m'.
Proof.
  revert m. induction vs as [|v vs IH]; intros m H; cbn [ofold]; [by eexists|].
  pose proof (H (sig v)) as Hv. rewrite filter_cons_True in Hv by done. cbn [ofold] in Hv.
  assert (exists m1, merge_value ord md5 kind m v = Ok m1) as [m1 E].
  { unfold merge_value. destruct (m !! sig v) as [e|]; [|by eexists]. cbn [kstep] in Hv.
    destruct (MergeMetricValue kind v e); try discriminate. by eexists. }
  rewrite E. cbn [obind]. apply IH. intros sg. specialize (H sg). rewrite filter_cons in H.
  assert (ofold (merge_value ord md5 kind) m [v] = Ok m1) as E1 by (cbn [ofold]; by rewrite E).
  pose proof (values_look _ _ _ _ E1 sg) as L. rewrite filter_cons in L. destruct (decide (sig v = sg)).
  - cbn [ofold filter list_filter] in L, H. destruct (kstep kind (m !! sg) v); try discriminate. cbn [obind] in L, H.
    by simplify_eq.
  - cbn in L. simplify_eq. by rewrite <- L.
Qed.

Definition named (name : string) (sets : list metric_value_set) : list metric_value :=
  filter (fun s => mvs_name s = name) sets ≫= mvs_values.

Lemma sets_look sets st st' : ofold (merge_set ord md5 kinds) st sets = Ok st' ->
  (forall name sg, kfold (kind_of kinds name) (look st name sg) (filter (fun v => sig v = sg) (named name sets)) =
     Ok (look st' name sg)) /\
  dom st' = dom st ∪ list_to_set (mvs_name <$> sets).
Proof.
  revert st. induction sets as [|s sets IH]; intros st H; cbn [ofold] in H.
  { simplify_eq. split; [done|]. cbn. set_solver. }
  destruct (merge_set ord md5 kinds st s) as [st1| | |] eqn:E; try discriminate. cbn [obind] in H.
  destruct (IH _ H) as [IH1 IH2]. unfold merge_set in E.
  destruct (ofold _ _ (mvs_values s)) as [m| | |] eqn:Em; try discriminate. cbn [obind] in E. injection E as <-.
  split.
  - intros name sg. specialize (IH1 name sg). unfold named. rewrite filter_cons.
    destruct (decide (mvs_name s = name)) as [Hn|Hn].
    + subst name. rewrite bind_cons, filter_app, ofold_app.
      pose proof (values_look _ _ _ _ Em sg) as L.
      assert (look st (mvs_name s) sg = default ∅ (st !! mvs_name s) !! sg) as ->.
      { unfold look. by destruct (st !! mvs_name s). }
      rewrite L. cbn [obind]. unfold look at 1 in IH1. rewrite lookup_insert in IH1. done.
    + unfold look at 1 in IH1. rewrite lookup_insert_ne in IH1 by done. done.
  - rewrite IH2, dom_insert_L. cbn [fmap list_fmap list_to_set]. set_solver.
Qed.
Lemma sets_ok sets st :
  (forall name sg, is_ok (kfold (kind_of kinds name) (look st name sg) (filter (fun v => sig v = sg) (named name sets))) = true) ->
  exists st', ofold (merge_set ord md5 kinds) st sets = Ok st'.
Proof.
  revert st. induction sets as [|s sets IH]; intros st H; cbn [ofold]; [by eexists|].
  assert (exists m, ofold (merge_value ord md5 (kind_of kinds (mvs_name s))) (default ∅ (st !! mvs_name s)) (mvs_values s) = Ok m)
    as [m Em].
  { apply values_ok. intros sg. specialize (H (mvs_name s) sg). unfold named in H. rewrite filter_cons_True in H by done.
    rewrite bind_cons, filter_app, ofold_app in H.
    assert (look st (mvs_name s) sg = default ∅ (st !! mvs_name s) !! sg) as E.
    { unfold look. by destruct (st !! mvs_name s). }
    rewrite <- E. destruct (kfold _ _ _); done || discriminate. }
  assert (merge_set ord md5 kinds st s = Ok (<[mvs_name s := m]> st)) as E by (unfold merge_set; by rewrite Em).
  rewrite E. cbn [obind]. apply IH. intros name sg. specialize (H name sg).
  change (s :: sets) with ([s] ++ sets) in H. unfold named in H. rewrite filter_app, bind_app, filter_app, ofold_app in H.
  fold (named name [s]) (named name sets) in H.
  assert (ofold (merge_set ord md5 kinds) st [s] = Ok (<[mvs_name s := m]> st)) as E1 by (cbn [ofold]; by rewrite E).
  destruct (sets_look _ _ _ E1) as [L _]. rewrite L in H. exact H.
Qed.

(** every entry of the inner map carries the labels of some merged value *)
Lemma merge_labels kind v e r : MergeMetricValue kind v e = Ok r -> mv_labels r = mv_labels e \/ mv_labels r = mv_labels v.
Proof.
  destruct kind; cbn [MergeMetricValue]; unfold MergeCumulativeOrGaugeMetricValue.
  1,2,4: intros [= <-]; destruct (TimestampBefore _ _); auto.
  unfold MergeDeltaMetricValue. destruct (negb _); [intros [= <-]; auto|].
  destruct (match mv_value e with VNone => _ | _ => _ end); try discriminate. cbn [obind]. intros [= <-]. auto.
Qed.
Lemma kfold_labels kind vs c r : kfold kind c vs = Ok (Some r) ->
  (exists e, c = Some e /\ mv_labels r = mv_labels e) \/ (exists v, v ∈ vs /\ mv_labels r = mv_labels v).
Proof.
  revert c. induction vs as [|v vs IH]; intros c H; cbn [ofold] in H; [left; simplify_eq; eauto|].
  destruct (kstep kind c v) as [c'| | |] eqn:E; try discriminate. cbn [obind] in H.
  apply IH in H as [(e & -> & Hl)|(v' & Hv & Hl)].
  - destruct c as [e0|]; cbn [kstep] in E.
    + destruct (MergeMetricValue kind v e0) as [r0| | |] eqn:Em; try discriminate. cbn [obind] in E. simplify_eq.
      apply merge_labels in Em as [Em|Em].
      * left. exists e0. split; [done|congruence].
      * right. exists v. split; [constructor|congruence].
    + simplify_eq. right. exists e. split; [constructor|done].
  - right. exists v'. split; [by constructor|done].
Qed.

(** ** the whole run *)
Definition run (ops : list operation) : outcome (gmap string (gmap string metric_value)) :=
  ofold (merge_set ord md5 kinds) ∅ (ops ≫= op_mvs).

Lemma bind_assoc_ {A B C} (f : A -> list B) (g : B -> list C) (l : list A) : (l ≫= f) ≫= g = l ≫= fun x => f x ≫= g.
Proof. induction l as [|x l IH]; [done|]. by rewrite !bind_cons, bind_app, IH. Qed.

Definition merged_operation (first : operation) (rest : list operation) : operation :=
  Operation (op_id first) (op_name first) (op_consumer first)
    (foldl (fun t o => merge_start (op_start o) t) (op_start first) rest)
    (foldl (fun t o => merge_end (op_end o) t) (op_end first) rest)
    (op_labels first) [] (op_logs first ++ (rest ≫= op_logs)) (op_importance first) (op_rest first).

Lemma aggregator_state first rest :
  (let! a := NewOperationAggregator ord md5 kinds first in ofold (fun a o => MergeOperation ord md5 kinds o a) a rest) =
  let! sets := run (first :: rest) in Ok (OpAgg (merged_operation first rest) sets).
Proof.
  unfold run. rewrite bind_cons, ofold_app. unfold NewOperationAggregator, MergeMetricValueSets.
  destruct (ofold _ ∅ (op_mvs first)) as [st| | |]; cbn [obind]; [|done..].
  assert (forall p, ofold (fun a o => MergeOperation ord md5 kinds o a) (OpAgg p st) rest =
    let! sets := ofold (merge_set ord md5 kinds) st (rest ≫= op_mvs) in
    Ok (OpAgg (Operation (op_id p) (op_name p) (op_consumer p)
      (foldl (fun t o => merge_start (op_start o) t) (op_start p) rest)
      (foldl (fun t o => merge_end (op_end o) t) (op_end p) rest)
      (op_labels p) (op_mvs p) (op_logs p ++ (rest ≫= op_logs)) (op_importance p) (op_rest p)) sets)) as G.
  { clear first. revert st. induction rest as [|o rest IH]; intros st p.
    - cbn. rewrite app_nil_r. by destruct p.
    - cbn [ofold]. unfold MergeOperation at 1, MergeMetricValueSets. cbn [oa_operation oa_sets].
      rewrite !bind_cons, ofold_app.
      destruct (ofold (merge_set ord md5 kinds) st (op_mvs o)) as [st1| | |]; cbn [obind]; [|done..].
      rewrite IH. cbn. by rewrite <- app_assoc. }
  rewrite G. done.
Qed.
Lemma aggregate_run first rest : aggregate ord md5 kinds first rest =
  let! sets := run (first :: rest) in Ok (ToOperationProto ord (OpAgg (merged_operation first rest) sets)).
Proof.
  unfold aggregate.
  transitivity (let! a := (let! a := NewOperationAggregator ord md5 kinds first in
     ofold (fun a o => MergeOperation ord md5 kinds o a) a rest) in Ok (ToOperationProto ord a)).
  - destruct (NewOperationAggregator _ _ _ _); done.
  - rewrite aggregator_state. by destruct (run _).
Qed.

(** ** the emitted sets *)
Definition emit (st : gmap string (gmap string metric_value)) : list metric_value_set :=
  (fun nm : string * gmap string metric_value => MetricValueSet nm.1 (snd <$> ho_list ord nm.2)) <$> ho_list ord st.

Lemma ho_elem {V} (m : gmap string V) k v : (k, v) ∈ ho_list ord m <-> m !! k = Some v.
Proof. rewrite (ho_perm ord m). apply elem_of_map_to_list. Qed.
Lemma ho_nodup {V} (m : gmap string V) : NoDup (ho_list ord m).*1.
Proof. rewrite (ho_perm ord m). apply NoDup_fst_map_to_list. Qed.

Lemma filter_key {V} (l : list (string * V)) k v : NoDup l.*1 -> (k, v) ∈ l -> filter (fun kv => kv.1 = k) l = [(k, v)].
Proof.
  induction l as [|[k' v'] l IH]; [intros _ H; by apply elem_of_nil in H|].
  intros [Hn Hd]%NoDup_cons H. rewrite filter_cons. cbn [fst]. apply elem_of_cons in H as [H|H].
  - simplify_eq. rewrite decide_True by done. f_equal.
    apply filter_nil_iff. intros [k2 v2] H2. cbn. intros ->. apply Hn. apply elem_of_list_fmap. by exists (k', v2).
  - rewrite decide_False; [by apply IH|]. intros ->. apply Hn. apply elem_of_list_fmap. by exists (k, v).
Qed.
Lemma filter_no_key {V} (l : list (string * V)) k : k ∉ l.*1 -> filter (fun kv => kv.1 = k) l = [].
Proof. intros H. apply filter_nil_iff. intros [k2 v2] H2. cbn. intros ->. apply H. apply elem_of_list_fmap. by exists (k, v2). Qed.
Lemma filter_fmap_ {A B} (P : B -> Prop) `{!forall x, Decision (P x)} (f : A -> B) (l : list A) :
  filter P (f <$> l) = f <$> filter (fun x => P (f x)) l.
Proof. induction l as [|x l IH]; [done|]. rewrite fmap_cons, !filter_cons, IH. by destruct (decide _). Qed.

Lemma emit_names st : NoDup (mvs_name <$> emit st) /\ (forall n, n ∈ mvs_name <$> emit st <-> n ∈ dom st).
Proof.
  unfold emit. rewrite <- list_fmap_compose. change (mvs_name ∘ _) with (@fst string (gmap string metric_value)).
  split; [apply ho_nodup|]. intros n. rewrite (ho_perm ord st), elem_of_list_fmap, elem_of_dom. split.
  - intros ([k m] & -> & H%elem_of_map_to_list). eauto.
  - intros [m H]. exists (n, m). split; [done|]. by apply elem_of_map_to_list.
Qed.
Lemma emit_named st name m : st !! name = Some m -> named name (emit st) = snd <$> ho_list ord m.
Proof.
  intros H. unfold named, emit. rewrite filter_fmap_.
  rewrite (filter_ext_in _ (fun kv => kv.1 = name)) by done.
  rewrite (filter_key _ name m); [|apply ho_nodup|by apply ho_elem]. cbn. by rewrite app_nil_r.
Qed.
Lemma emit_not_named st name : st !! name = None -> named name (emit st) = [].
Proof.
  intros H. unfold named, emit. rewrite filter_fmap_.
  rewrite (filter_ext_in _ (fun kv => kv.1 = name)) by done.
  rewrite filter_no_key; [done|]. intros ([k m] & -> & H'%ho_elem)%elem_of_list_fmap. cbn in *. congruence.
Qed.

(** all values of one metric name *)
Definition named_in (name : string) (ops : list operation) : list metric_value := named name (ops ≫= op_mvs).
Lemma all_values_named name labels ops : all_values name labels ops = filter (fun v => mv_labels v = labels) (named_in name ops).
Proof.
  unfold all_values, values_of, named_in, named.
  rewrite (filter_bind _ op_mvs ops), bind_assoc_, (filter_bind _ _ ops). done.
Qed.
Lemma elem_named name sets v : v ∈ named name sets <-> exists s, s ∈ sets /\ mvs_name s = name /\ v ∈ mvs_values s.
Proof.
  unfold named. rewrite elem_of_list_bind. split.
  - intros (s & Hv & [? ?]%elem_of_list_filter). eauto.
  - intros (s & Hs & Hn & Hv). exists s. split; [done|]. by apply elem_of_list_filter.
Qed.
Lemma separated_named ops name1 name2 v1 v2 : labels_separated ord md5 ops ->
  v1 ∈ named_in name1 ops -> v2 ∈ named_in name2 ops -> sig v1 = sig v2 -> mv_labels v1 = mv_labels v2.
Proof.
  unfold named_in. intros H (s1 & Hs1 & _ & Hv1)%elem_named (s2 & Hs2 & _ & Hv2)%elem_named.
  apply elem_of_list_bind in Hs1 as (o1 & ? & ?), Hs2 as (o2 & ? & ?).
  by apply (H o1 o2 s1 s2).
Qed.

(** the signature under which a value is stored is the signature of its labels *)
Lemma run_sig ops st name m sg r : run ops = Ok st -> st !! name = Some m -> m !! sg = Some r ->
  sig r = sg /\ exists v, v ∈ named_in name ops /\ mv_labels r = mv_labels v.
Proof.
  intros H Hm Hr. destruct (sets_look _ _ _ H) as [L _]. specialize (L name sg).
  assert (look st name sg = Some r) as Hl by (unfold look; by rewrite Hm).
  rewrite Hl in L. apply kfold_labels in L as [(e & He & _)|(v & Hv & El)].
  - unfold look in He. by rewrite lookup_empty in He.
  - apply elem_of_list_filter in Hv as [Hs Hv]. split; [|eauto].
    rewrite <- Hs. by apply metric_sig_congr.
Qed.

Lemma kfold_some kind e vs : kfold kind (Some e) vs = let! r := ofold (fun e v => MergeMetricValue kind v e) e vs in Ok (Some r).
Proof.
  revert e. induction vs as [|v vs IH]; intros e; cbn [ofold]; [done|]. cbn [kstep].
  destruct (MergeMetricValue kind v e); cbn [obind]; auto.
Qed.

(** the value emitted for one label set of one metric *)
Lemma run_key ops st name labels : run ops = Ok st -> labels_separated ord md5 ops ->
  match all_values name labels ops with
  | [] => filter (fun v => mv_labels v = labels) (named name (emit st)) = []
  | v :: vs => exists r, ofold (fun e v => MergeMetricValue (kind_of kinds name) v e) v vs = Ok r /\
                 mv_labels r = labels /\
                 filter (fun v => mv_labels v = labels) (named name (emit st)) = [r]
  end.
Proof.
  intros H Hsep. rewrite all_values_named.
  destruct (filter _ (named_in name ops)) as [|v vs] eqn:Ef.
  - destruct (st !! name) as [m|] eqn:Em; [|by rewrite (emit_not_named _ _ Em)].
    rewrite (emit_named _ _ _ Em). apply filter_nil_iff. intros r Hr Hl.
    apply elem_of_list_fmap in Hr as ([sg r'] & -> & Hr%ho_elem). cbn in *.
    destruct (run_sig _ _ _ _ _ _ H Em Hr) as (_ & v & Hv & E).
    assert (v ∈ @nil metric_value) as C; [|by apply elem_of_nil in C].
    rewrite <- Ef. apply elem_of_list_filter. split; [congruence|done].
  - assert (v ∈ named_in name ops /\ mv_labels v = labels) as [Hv Hvl].
    { assert (v ∈ v :: vs) as Hin by constructor. rewrite <- Ef in Hin. by apply elem_of_list_filter in Hin as [? ?]. }
    destruct (sets_look _ _ _ H) as [L _]. specialize (L name (sig v)).
    unfold look at 1 in L. rewrite lookup_empty in L. cbn [mbind option_bind] in L.
    fold (named_in name ops) in L.
    rewrite (filter_ext_in _ (fun v => mv_labels v = labels)) in L.
    2: { intros x Hx. split; intros Hs.
         - rewrite <- Hvl. by eapply separated_named.
         - apply metric_sig_congr. congruence. }
    rewrite Ef in L. cbn [ofold kstep obind] in L. rewrite kfold_some in L.
    destruct (ofold _ v vs) as [r| | |] eqn:Er; try discriminate. cbn [obind] in L. injection L as L.
    symmetry in L. unfold look in L. apply bind_Some in L as (m & Em & Hr).
    exists r. split; [done|].
    destruct (run_sig _ _ _ _ _ _ H Em Hr) as (Hsr & v' & Hv' & El).
    assert (mv_labels r = labels) as Hlr.
    { rewrite <- Hvl, El. eapply separated_named; [exact Hsep|exact Hv'|exact Hv|].
      rewrite <- Hsr. symmetry. by apply metric_sig_congr. }
    split; [done|]. rewrite (emit_named _ _ _ Em).
    rewrite filter_fmap_. rewrite (filter_ext_in _ (fun kv => kv.1 = sig v)).
    + rewrite (filter_key _ (sig v) r); [done|apply ho_nodup|by apply ho_elem].
    + intros [sg x] Hx%ho_elem. cbn. destruct (run_sig _ _ _ _ _ _ H Em Hx) as (Hsx & _). split.
      * intros Hl. rewrite <- Hsx. apply metric_sig_congr. congruence.
      * intros ->. congruence.
Qed.

Lemma run_app_ok ops : (forall name sg, is_ok (kfold (kind_of kinds name) None (filter (fun v => sig v = sg) (named_in name ops))) = true) ->
  exists st, run ops = Ok st.
Proof. intros H. apply sets_ok. intros name sg. unfold look. rewrite lookup_empty. apply H. Qed.

(** ** Theorems *)
Lemma aggregate_inv first rest out : aggregate ord md5 kinds first rest = Ok out ->
  exists st, run (first :: rest) = Ok st /\ out = ToOperationProto ord (OpAgg (merged_operation first rest) st).
Proof. rewrite aggregate_run. destruct (run (first :: rest)) as [st| | |]; try discriminate. intros [= <-]. eauto. Qed.
Lemma values_of_out name labels first rest st :
  values_of name labels (ToOperationProto ord (OpAgg (merged_operation first rest) st)) =
  filter (fun v => mv_labels v = labels) (named name (emit st)).
Proof. done. Qed.
Lemma aggregate_key first rest out name labels : aggregate ord md5 kinds first rest = Ok out ->
  labels_separated ord md5 (first :: rest) ->
  match all_values name labels (first :: rest) with
  | [] => values_of name labels out = []
  | v :: vs => exists r, ofold (fun e v => MergeMetricValue (kind_of kinds name) v e) v vs = Ok r /\
                 mv_labels r = labels /\ values_of name labels out = [r]
  end.
Proof. intros (st & Hr & ->)%aggregate_inv Hs. rewrite values_of_out. by apply run_key. Qed.

Lemma delta_kind name : is_delta kinds name -> kind_of kinds name = Delta.
Proof. unfold is_delta, kind_of. destruct kinds as [m|]; [|done]. intros [->| ->]; done. Qed.
Lemma non_delta_kind name : ~ is_delta kinds name -> kind_of kinds name <> Delta.
Proof.
  unfold is_delta, kind_of. destruct kinds as [m|]; [|tauto]. destruct (m !! name) as [[]|] eqn:E; cbn; try done; tauto.
Qed.

Lemma delta_ints v z vs zs r : mv_value v = VInt64 z -> ints_are vs zs ->
  ofold (fun e v => MergeMetricValue Delta v e) v vs = Ok r -> mv_value r = VInt64 (z + sum_Z zs).
Proof.
  unfold ints_are. revert v z zs. induction vs as [|w vs IH]; intros v z zs Hv Hz H; cbn [ofold] in H.
  - destruct zs; [|discriminate]. simplify_eq. rewrite Hv. f_equal. cbn. lia.
  - destruct zs as [|z1 zs]; [discriminate|]. cbn in Hz. injection Hz as Hw Hz. unfold int_of in Hw.
    destruct (mv_value w) as [| |z1'| | |] eqn:Ew; try discriminate. injection Hw as ->.
    cbn [MergeMetricValue] in H. unfold MergeDeltaMetricValue in H. rewrite Hv, Ew in H. cbn [same_case negb] in H.
    destruct (add64 Strict z z1) as [s| | |] eqn:Ea; try discriminate. cbn [obind] in H.
    assert (s = z + z1) as ->.
    { apply add64_strict in Ea as [? ?]. done. }
    eapply IH in H; [|reflexivity|exact Hz]. rewrite H, sum_Z_cons. f_equal. lia.
Qed.
Lemma ints_total first rest out name labels zs : aggregate ord md5 kinds first rest = Ok out ->
  labels_separated ord md5 (first :: rest) -> is_delta kinds name ->
  ints_are (all_values name labels (first :: rest)) zs -> zs <> [] ->
  exists v, values_of name labels out = [v] /\ mv_value v = VInt64 (sum_Z zs).
Proof.
  intros H Hs Hd Hz Hne. pose proof (aggregate_key _ _ _ name labels H Hs) as K.
  destruct (all_values name labels (first :: rest)) as [|v vs]; [by destruct zs|].
  destruct K as (r & Hr & _ & Ho). exists r. split; [done|]. rewrite delta_kind in Hr by done.
  destruct zs as [|z zs]; [done|]. unfold ints_are in Hz. cbn in Hz. injection Hz as Hv Hz. unfold int_of in Hv.
  destruct (mv_value v) eqn:Ev; try discriminate. injection Hv as ->.
  rewrite (delta_ints v z vs zs r) by done. by rewrite sum_Z_cons.
Qed.

Lemma delta_ints_ok v z vs zs : mv_value v = VInt64 z -> ints_are vs zs ->
  (forall k, int64_min <= z + sum_Z (take k zs) <= int64_max) ->
  is_ok (ofold (fun e v => MergeMetricValue Delta v e) v vs) = true.
Proof.
  unfold ints_are. revert v z zs. induction vs as [|w vs IH]; intros v z zs Hv Hz Hp; cbn [ofold]; [done|].
  destruct zs as [|z1 zs]; [discriminate|]. cbn in Hz. injection Hz as Hw Hz. unfold int_of in Hw.
  destruct (mv_value w) as [| |z1'| | |] eqn:Ew; try discriminate. injection Hw as ->.
  cbn [MergeMetricValue]. unfold MergeDeltaMetricValue. rewrite Hv, Ew. cbn [same_case negb].
  assert (forall k, int64_min <= z + z1 + sum_Z (take k zs) <= int64_max) as Hp'.
  { intros k. specialize (Hp (S k)). cbn [take] in Hp. rewrite sum_Z_cons in Hp. lia. }
  rewrite add64_fits. 2: { specialize (Hp' 0%nat). change (sum_Z (take 0 zs)) with 0 in Hp'. lia. }
  cbn [obind]. eapply IH; [reflexivity|exact Hz|exact Hp'].
Qed.
Lemma ofold_not_delta kind v vs : kind <> Delta -> is_ok (ofold (fun e v => MergeMetricValue kind v e) v vs) = true.
Proof. intros Hk. revert v. induction vs as [|w vs IH]; intros v; cbn [ofold]; [done|]. destruct kind; try done; apply IH. Qed.

Lemma aggregate_defined first rest : labels_separated ord md5 (first :: rest) ->
  (forall o s v, o ∈ first :: rest -> s ∈ op_mvs o -> v ∈ mvs_values s -> exists z, mv_value v = VInt64 z) ->
  (forall name labels zs, is_delta kinds name -> ints_are (all_values name labels (first :: rest)) zs -> prefix_sums_fit zs) ->
  exists out, aggregate ord md5 kinds first rest = Ok out.
Proof.
  intros Hs Hi Hf. rewrite aggregate_run.
  assert (exists st, run (first :: rest) = Ok st) as [st ->]; [|by eexists].
  apply run_app_ok. intros name sg.
  destruct (filter (fun v => sig v = sg) (named_in name (first :: rest))) as [|v vs] eqn:Ef; [done|].
  assert (v ∈ named_in name (first :: rest) /\ sig v = sg) as [Hv <-].
  { assert (v ∈ v :: vs) as Hin by constructor. rewrite <- Ef in Hin. by apply elem_of_list_filter in Hin as [? ?]. }
  cbn [ofold kstep obind]. rewrite kfold_some.
  assert (is_ok (ofold (fun e v => MergeMetricValue (kind_of kinds name) v e) v vs) = true) as Hok;
    [|destruct (ofold _ v vs); done || discriminate].
  assert (kind_of kinds name = Delta \/ kind_of kinds name <> Delta) as [Hk|Hk] by (destruct (kind_of kinds name); auto);
    [|by apply ofold_not_delta].
  { rewrite Hk.
    assert (all_values name (mv_labels v) (first :: rest) = v :: vs) as Ea.
    { rewrite all_values_named, <- Ef. apply filter_ext_in. intros x Hx. split; intros E.
      - by apply metric_sig_congr.
      - by apply (separated_named (first :: rest) name name). }
    assert (exists zs, ints_are (v :: vs) zs) as [zs Hz].
    { assert (forall x, x ∈ v :: vs -> exists z, mv_value x = VInt64 z) as Hall.
      { intros x Hx. rewrite <- Ef in Hx. apply elem_of_list_filter in Hx as [_ (s & Hs' & _ & Hx)%elem_named].
        apply elem_of_list_bind in Hs' as (o & ? & ?). eauto. }
      clear - Hall. unfold ints_are. induction (v :: vs) as [|x l IH]; [by exists []|].
      destruct IH as [zs Hz]; [intros y Hy; apply Hall; by constructor|].
      destruct (Hall x) as [z Hx]; [constructor|]. exists (z :: zs). rewrite !fmap_cons. unfold int_of at 1. by rewrite Hx, Hz. }
    rewrite <- Ea in Hz. assert (is_delta kinds name) as Hd.
    { unfold kind_of, is_delta in *. destruct kinds as [m|]; [|done]. destruct (m !! name) as [[]|]; cbn in Hk; auto; discriminate. }
    specialize (Hf name (mv_labels v) zs Hd Hz). rewrite Ea in Hz. unfold ints_are in Hz.
    destruct zs as [|z zs]; [discriminate|]. cbn in Hz. injection Hz as Hv1 Hz. unfold int_of in Hv1.
    destruct (mv_value v) eqn:Ev; try discriminate. injection Hv1 as ->.
    eapply delta_ints_ok; [exact Ev|exact Hz|]. intros k. specialize (Hf (S k)). cbn [take] in Hf. by rewrite sum_Z_cons in Hf. }
Qed.

(** time span of the operation *)
Lemma span_start l x0 rest : earliest l x0 ->
  earliest (l ++ (op_start <$> rest)) (foldl (fun t o => merge_start (op_start o) t) x0 rest).
Proof.
  revert l x0. induction rest as [|o rest IH]; intros l x0 H; cbn [foldl fmap list_fmap].
  - by rewrite app_nil_r.
  - change (op_start o :: _) with ([op_start o] ++ (op_start <$> rest)). rewrite app_assoc. apply IH. by apply earliest_snoc.
Qed.
Lemma span_end l x0 rest : latest l x0 ->
  latest (l ++ (op_end <$> rest)) (foldl (fun t o => merge_end (op_end o) t) x0 rest).
Proof.
  revert l x0. induction rest as [|o rest IH]; intros l x0 H; cbn [foldl fmap list_fmap].
  - by rewrite app_nil_r.
  - change (op_end o :: _) with ([op_end o] ++ (op_end <$> rest)). rewrite app_assoc. apply IH. by apply latest_snoc.
Qed.
Lemma operation_span first rest out : aggregate ord md5 kinds first rest = Ok out ->
  earliest (op_start <$> first :: rest) (op_start out) /\ latest (op_end <$> first :: rest) (op_end out).
Proof.
  intros (st & _ & ->)%aggregate_inv. cbn [ToOperationProto oa_operation merged_operation op_start op_end]. split.
  - apply (span_start [op_start first]), earliest_single.
  - apply (span_end [op_end first]), latest_single.
Qed.

Lemma same_case_type a b : value_type a = value_type b <-> same_case (mv_value b) (mv_value a) = true.
Proof. unfold value_type. by destruct (mv_value a), (mv_value b). Qed.
Lemma delta_step e v r : MergeMetricValue Delta v e = Ok r -> value_type v = value_type e ->
  mv_start r = merge_start (mv_start v) (mv_start e) /\ mv_end r = merge_end (mv_end v) (mv_end e) /\ value_type r = value_type e.
Proof.
  intros H Ht. cbn [MergeMetricValue] in H. unfold MergeDeltaMetricValue in H.
  rewrite (proj1 (same_case_type v e) Ht) in H. cbn [negb] in H.
  unfold value_type in Ht. unfold value_type.
  destruct (mv_value e) eqn:Ee, (mv_value v) eqn:Ev; try discriminate; cbn [obind] in H; simplify_eq; cbn; try done.
  - destruct (add64 _ _ _); try discriminate. cbn [obind] in H. by simplify_eq.
  - destruct (Merge _ _) as [[]| | |]; try discriminate. cbn [obind] in H. by simplify_eq.
Qed.
Lemma delta_hull l v vs r : ofold (fun e v => MergeMetricValue Delta v e) v vs = Ok r ->
  (forall w, w ∈ vs -> value_type w = value_type v) ->
  earliest (mv_start <$> l) (mv_start v) -> latest (mv_end <$> l) (mv_end v) ->
  earliest (mv_start <$> l ++ vs) (mv_start r) /\ latest (mv_end <$> l ++ vs) (mv_end r).
Proof.
  revert l v. induction vs as [|w vs IH]; intros l v H Ht H1 H2; cbn [ofold] in H.
  { simplify_eq. by rewrite app_nil_r. }
  destruct (MergeMetricValue Delta w v) as [e| | |] eqn:E; try discriminate. cbn [obind] in H.
  apply delta_step in E as (E1 & E2 & E3); [|apply Ht; constructor].
  change (w :: vs) with ([w] ++ vs). rewrite app_assoc. apply (IH (l ++ [w]) e); [done| | |].
  - intros x Hx. rewrite E3. apply Ht. by constructor.
  - rewrite E1, fmap_app. by apply earliest_snoc.
  - rewrite E2, fmap_app. by apply latest_snoc.
Qed.
Lemma value_span first rest out name labels : aggregate ord md5 kinds first rest = Ok out ->
  labels_separated ord md5 (first :: rest) -> is_delta kinds name ->
  all_values name labels (first :: rest) <> [] -> one_type (all_values name labels (first :: rest)) ->
  exists v, values_of name labels out = [v] /\
    earliest (mv_start <$> all_values name labels (first :: rest)) (mv_start v) /\
    latest (mv_end <$> all_values name labels (first :: rest)) (mv_end v).
Proof.
  intros H Hs Hd Hne Ht. pose proof (aggregate_key _ _ _ name labels H Hs) as K.
  destruct (all_values name labels (first :: rest)) as [|v vs]; [done|].
  destruct K as (r & Hr & _ & Ho). exists r. split; [done|]. rewrite delta_kind in Hr by done.
  apply (delta_hull [v] v vs r Hr).
  - intros w Hw. apply Ht; [by constructor|constructor].
  - apply earliest_single.
  - apply latest_single.
Qed.

(** gauges *)
Lemma gauge_fold kind v vs r : kind <> Delta -> ofold (fun e v => MergeMetricValue kind v e) v vs = Ok r ->
  exists l1 l2, v :: vs = l1 ++ r :: l2 /\ (forall w, w ∈ l1 -> ~ ts_lt (end_of r) (end_of w)) /\
    (forall w, w ∈ l2 -> ts_lt (end_of w) (end_of r)).
Proof.
  intros Hk. revert v. induction vs as [|w vs IH]; intros v H; cbn [ofold] in H.
  { simplify_eq. exists [], []. split; [done|]. split; intros w Hw; by apply elem_of_nil in Hw. }
  assert (MergeMetricValue kind w v = Ok (MergeCumulativeOrGaugeMetricValue w v)) as E by (by destruct kind).
  rewrite E in H. cbn [obind] in H. unfold MergeCumulativeOrGaugeMetricValue in H.
  fold (end_of w) (end_of v) in H. change (ts_get (mv_end w)) with (end_of w) in H. change (ts_get (mv_end v)) with (end_of v) in H.
  destruct (TimestampBefore (end_of w) (end_of v)) eqn:Eb.
  - apply before_iff in Eb. apply IH in H as ([|x l1] & l2 & Hl & H1 & H2); cbn in Hl; simplify_eq.
    + exists [], (w :: l2). split; [done|]. split; [intros x Hx; by apply elem_of_nil in Hx|].
      intros x [->|Hx]%elem_of_cons; auto.
    + exists (x :: w :: l1), l2. split; [done|]. split; [|done].
      intros y [->|[->|Hy]%elem_of_cons]%elem_of_cons.
      * apply H1. constructor.
      * assert (~ ts_lt (end_of r) (end_of x)) as Hx by (apply H1; constructor). intros C. apply Hx.
        clear - Eb C. unfold ts_lt in *. lia.
      * apply H1. by constructor.
  - apply before_false in Eb. apply IH in H as (l1 & l2 & Hl & H1 & H2).
    destruct l1 as [|x l1]; cbn in Hl.
    + injection Hl as -> ->. exists [v], l2. split; [done|]. split; [|done].
      intros x ->%elem_of_list_singleton. done.
    + injection Hl as <- ->. exists (v :: w :: l1), l2. split; [done|]. split; [|done].
      intros y [->|Hy]%elem_of_cons; [|auto].
      assert (~ ts_lt (end_of r) (end_of w)) as Hx by (apply H1; constructor).
      apply (ts_not_lt_trans (end_of v) (end_of w) (end_of r)) in Eb; [|done]. done.
Qed.
Lemma gauge_latest first rest out name labels : aggregate ord md5 kinds first rest = Ok out ->
  labels_separated ord md5 (first :: rest) -> ~ is_delta kinds name -> all_values name labels (first :: rest) <> [] ->
  exists v before after, values_of name labels out = [v] /\
    all_values name labels (first :: rest) = before ++ v :: after /\
    (forall w, w ∈ before -> ~ ts_lt (end_of v) (end_of w)) /\ (forall w, w ∈ after -> ts_lt (end_of w) (end_of v)).
Proof.
  intros H Hs Hd Hne. pose proof (aggregate_key _ _ _ name labels H Hs) as K.
  destruct (all_values name labels (first :: rest)) as [|v vs]; [done|].
  destruct K as (r & Hr & _ & Ho). apply gauge_fold in Hr as (l1 & l2 & ? & ? & ?); [|by apply non_delta_kind].
  exists r, l1, l2. auto.
Qed.

(** logs, identity, names *)
Lemma logs_concat first rest out : aggregate ord md5 kinds first rest = Ok out ->
  op_logs out = concat (op_logs <$> first :: rest).
Proof.
  intros (st & _ & ->)%aggregate_inv. cbn [ToOperationProto op_logs oa_operation merged_operation fmap list_fmap concat].
  f_equal. clear. induction rest as [|o rest IH]; [done|]. cbn [mbind list_bind fmap list_fmap concat]. by rewrite <- IH.
Qed.
Lemma identity_first first rest out : aggregate ord md5 kinds first rest = Ok out ->
  op_id out = op_id first /\ op_name out = op_name first /\ op_consumer out = op_consumer first /\
  op_labels out = op_labels first /\ op_importance out = op_importance first /\ op_rest out = op_rest first.
Proof. intros (st & _ & ->)%aggregate_inv. done. Qed.
Lemma names_once first rest out : aggregate ord md5 kinds first rest = Ok out ->
  NoDup (names_of out) /\ (forall n, n ∈ names_of out <-> exists o, o ∈ first :: rest /\ n ∈ names_of o).
Proof.
  intros (st & Hr & ->)%aggregate_inv. unfold names_of. cbn [ToOperationProto op_mvs oa_operation merged_operation app oa_sets].
  change ((fun nm => _) <$> ho_list ord st) with (emit st). destruct (emit_names st) as [H1 H2]. split; [done|].
  intros n. rewrite H2. destruct (sets_look _ _ _ Hr) as [_ ->]. rewrite dom_empty_L.
  rewrite elem_of_union, elem_of_list_to_set. split.
  - intros [?|(s & -> & (o & ? & ?)%elem_of_list_bind)%elem_of_list_fmap]; [set_solver|].
    exists o. split; [done|]. apply elem_of_list_fmap. eauto.
  - intros (o & Ho & (s & -> & Hs)%elem_of_list_fmap). right. apply elem_of_list_fmap. exists s. split; [done|].
    apply elem_of_list_bind. eauto.
Qed.
Lemma label_sets_once first rest out name labels : aggregate ord md5 kinds first rest = Ok out ->
  labels_separated ord md5 (first :: rest) ->
  match all_values name labels (first :: rest) with
  | [] => values_of name labels out = []
  | _ => exists v, values_of name labels out = [v]
  end.
Proof.
  intros H Hs. pose proof (aggregate_key _ _ _ name labels H Hs) as K. destruct (all_values _ _ _); [done|].
  destruct K as (r & _ & _ & ?). eauto.
Qed.

Lemma double_fold v d vs ds r : mv_value v = VDouble d -> mv_value <$> vs = VDouble <$> ds ->
  ofold (fun e v => MergeMetricValue Delta v e) v vs = Ok r -> mv_value r = VDouble (foldl fadd d ds).
Proof.
  revert v d ds. induction vs as [|w vs IH]; intros v d ds Hv Hz H; cbn [ofold] in H.
  - destruct ds; [|discriminate]. simplify_eq. done.
  - destruct ds as [|d1 ds]; [discriminate|]. cbn in Hz. injection Hz as Hw Hz.
    cbn [MergeMetricValue] in H. unfold MergeDeltaMetricValue in H. rewrite Hv, Hw in H. cbn [same_case negb obind] in H.
    eapply IH in H; [|reflexivity|exact Hz]. done.
Qed.
Lemma doubles_total first rest out name labels d ds : aggregate ord md5 kinds first rest = Ok out ->
  labels_separated ord md5 (first :: rest) -> is_delta kinds name ->
  mv_value <$> all_values name labels (first :: rest) = VDouble <$> d :: ds ->
  exists v, values_of name labels out = [v] /\ mv_value v = VDouble (foldl fadd d ds).
Proof.
  intros H Hs Hd Hz. pose proof (aggregate_key _ _ _ name labels H Hs) as K.
  destruct (all_values name labels (first :: rest)) as [|v vs]; [done|].
  destruct K as (r & Hr & _ & Ho). exists r. split; [done|]. rewrite delta_kind in Hr by done.
  cbn in Hz. injection Hz as Hv Hz. by apply (double_fold v d vs ds).
Qed.
End key.

(** ** order independence *)
Lemma all_values_perm name labels ops1 ops2 : ops1 ≡ₚ ops2 -> all_values name labels ops1 ≡ₚ all_values name labels ops2.
Proof. intros H. unfold all_values. by rewrite H. Qed.
Lemma sum_Z_perm l1 l2 : l1 ≡ₚ l2 -> sum_Z l1 = sum_Z l2.
Proof. induction 1 as [|x l1 l2 _ IH|x y l|l1 l2 l3 _ IH1 _ IH2]; rewrite ?sum_Z_cons; lia. Qed.
Lemma ints_are_unique vs z1 z2 : ints_are vs z1 -> ints_are vs z2 -> z1 = z2.
Proof. unfold ints_are. intros H1 H2. rewrite H1 in H2. by apply (inj (fmap Some)) in H2. Qed.
Lemma ints_are_perm vs1 vs2 zs1 : vs1 ≡ₚ vs2 -> ints_are vs1 zs1 -> exists zs2, ints_are vs2 zs2 /\ zs1 ≡ₚ zs2.
Proof.
  unfold ints_are. intros Hp H. assert (int_of <$> vs2 ≡ₚ Some <$> zs1) as Hq by (rewrite <- H; by rewrite Hp).
  apply Permutation_map_inv in Hq as (zs2 & E & Hq). exists zs2. split; [exact E|done].
Qed.
Lemma merge_order ord1 ord2 md5 kinds f1 r1 f2 r2 out1 out2 : f1 :: r1 ≡ₚ f2 :: r2 ->
  aggregate ord1 md5 kinds f1 r1 = Ok out1 -> aggregate ord2 md5 kinds f2 r2 = Ok out2 ->
  labels_separated ord1 md5 (f1 :: r1) ->
  op_start out1 = op_start out2 /\ op_end out1 = op_end out2 /\
  (forall n, n ∈ names_of out1 <-> n ∈ names_of out2) /\
  (forall name labels, length (values_of name labels out1) = length (values_of name labels out2)) /\
  (forall name labels zs, is_delta kinds name -> ints_are (all_values name labels (f1 :: r1)) zs ->
     mv_value <$> values_of name labels out1 = mv_value <$> values_of name labels out2).
Proof.
  intros Hp H1 H2 Hs1.
  assert (labels_separated ord2 md5 (f2 :: r2)) as Hs2.
  { intros o1 o2 s1 s2 v1 v2 Ho1 Ho2 Hv1 Hv2 ? ? E. apply (Hs1 o1 o2 s1 s2 v1 v2); try done; [by rewrite Hp..|].
    rewrite (metric_sig_congr md5 ord1 ord2 v1 v1), (metric_sig_congr md5 ord1 ord2 v2 v2) by done. done. }
  destruct (operation_span _ _ _ _ _ _ H1) as [A1 B1], (operation_span _ _ _ _ _ _ H2) as [A2 B2].
  split; [|split; [|split; [|split]]].
  - eapply earliest_unique; [|exact A1|exact A2]. intros x. by rewrite Hp.
  - eapply latest_unique; [|exact B1|exact B2]. intros x. by rewrite Hp.
  - intros n. destruct (names_once _ _ _ _ _ _ H1) as [_ ->], (names_once _ _ _ _ _ _ H2) as [_ ->].
    by setoid_rewrite Hp.
  - intros name labels. pose proof (label_sets_once _ _ _ _ _ _ name labels H1 Hs1) as K1.
    pose proof (label_sets_once _ _ _ _ _ _ name labels H2 Hs2) as K2.
    pose proof (all_values_perm name labels _ _ Hp) as Hpv.
    destruct (all_values name labels (f1 :: r1)), (all_values name labels (f2 :: r2)).
    + by rewrite K1, K2.
    + by apply Permutation_nil_cons in Hpv.
    + symmetry in Hpv. by apply Permutation_nil_cons in Hpv.
    + destruct K1 as [? ->], K2 as [? ->]. done.
  - intros name labels zs Hd Hz. pose proof (all_values_perm name labels _ _ Hp) as Hpv.
    destruct (ints_are_perm _ _ _ Hpv Hz) as (zs2 & Hz2 & Hpz).
    destruct zs as [|z zs].
    + apply Permutation_nil in Hpz. subst zs2.
      pose proof (label_sets_once _ _ _ _ _ _ name labels H1 Hs1) as K1.
      pose proof (label_sets_once _ _ _ _ _ _ name labels H2 Hs2) as K2.
      unfold ints_are in Hz, Hz2. destruct (all_values name labels (f1 :: r1)), (all_values name labels (f2 :: r2)); try discriminate.
      by rewrite K1, K2.
    + destruct (ints_total _ _ _ _ _ _ name labels _ H1 Hs1 Hd Hz) as (v1 & -> & E1); [done|].
      destruct (ints_total _ _ _ _ _ _ name labels _ H2 Hs2 Hd Hz2) as (v2 & -> & E2).
      { intros ->. symmetry in Hpz. by apply Permutation_nil_cons in Hpz. }
      cbn. rewrite E1, E2. by rewrite (sum_Z_perm _ _ Hpz).
Qed.
