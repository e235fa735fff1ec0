(** Proofs about quota operation aggregation, refutations, and distributions inside aggregated operations. *)
From Verif Require Import Proto Signature SignatureProofs Distribution DistributionSpec DistributionProofs Float64Proofs
  OpAgg OpAggSpec OpAggProofs.
Open Scope Z_scope.

Section quota.
Context (debug : bool).

Definition qstep (cur : option metric_value) (v : metric_value) : outcome (option metric_value) :=
  match cur with
  | None => Ok (Some v)
  | Some e => let! r := QuotaMergeDelta v e in Ok (Some r)
  end.
(** the first value of each set of one name *)
Definition firsts (name : string) (sets : list metric_value_set) : list metric_value :=
  filter (fun s => mvs_name s = name) sets ≫= fun s => take 1 (mvs_values s).

Lemma qsets_look sets st st' : ofold (quota_merge_set debug) st sets = Ok st' ->
  (forall name, ofold qstep (st !! name) (firsts name sets) = Ok (st' !! name)) /\
  dom st' = dom st ∪ list_to_set (mvs_name <$> sets).
Proof.
  revert st. induction sets as [|s sets IH]; intros st H; cbn [ofold] in H.
  { simplify_eq. split; [done|]. cbn. set_solver. }
  destruct (quota_merge_set debug st s) as [st1| | |] eqn:E; try discriminate. cbn [obind] in H.
  destruct (IH _ H) as [IH1 IH2]. unfold quota_merge_set in E.
  destruct (debug && _); [discriminate|]. destruct (mvs_values s) as [|mv mvs] eqn:Ev; [discriminate|].
  assert (exists r, qstep (st !! mvs_name s) mv = Ok (Some r) /\ st1 = <[mvs_name s := r]> st) as (r & Hr & ->).
  { destruct (st !! mvs_name s) as [e|]; cbn [qstep].
    - destruct (QuotaMergeDelta mv e); try discriminate. cbn [obind] in *. simplify_eq. eauto.
    - simplify_eq. eauto. }
  split.
  - intros name. specialize (IH1 name). unfold firsts. rewrite filter_cons.
    destruct (decide (mvs_name s = name)) as [<-|Hn].
    + rewrite bind_cons, ofold_app, Ev. cbn [take ofold]. rewrite Hr. cbn [obind]. by rewrite lookup_insert in IH1.
    + by rewrite lookup_insert_ne in IH1.
  - rewrite IH2, dom_insert_L. cbn [fmap list_fmap list_to_set]. set_solver.
Qed.

Lemma quota_aggregate_run ord first rest : quota_aggregate debug ord first rest =
  let! sets := ofold (quota_merge_set debug) ∅ ((first :: rest) ≫= qo_metrics) in
  Ok (QuotaToOperationProto ord (QOpAgg first sets)).
Proof.
  unfold quota_aggregate, NewQuotaOperationAggregator, QuotaMergeOperation. cbn [qa_sets qa_operation].
  rewrite bind_cons, ofold_app. destruct (ofold _ ∅ (qo_metrics first)) as [st| | |]; cbn [obind]; [|done..].
  assert (ofold (fun a o => let! sets := ofold (quota_merge_set debug) (qa_sets a) (qo_metrics o) in
      Ok (QOpAgg (qa_operation a) sets)) (QOpAgg first st) rest =
    let! sets := ofold (quota_merge_set debug) st (rest ≫= qo_metrics) in Ok (QOpAgg first sets)) as ->.
  { revert st. induction rest as [|o rest IH]; intros st; [done|]. cbn [ofold qa_sets qa_operation].
    rewrite bind_cons, ofold_app. destruct (ofold _ st (qo_metrics o)) as [st1| | |]; cbn [obind]; [|done..]. apply IH. }
  by destruct (ofold _ st _).
Qed.

Lemma qdelta_ints v z vs zs r : mv_value v = VInt64 z -> ints_are vs zs ->
  ofold qstep (Some v) vs = Ok r -> exists w, r = Some w /\ mv_value w = VInt64 (z + sum_Z zs).
Proof.
  unfold ints_are. revert v z zs. induction vs as [|w vs IH]; intros v z zs Hv Hz H; cbn [ofold] in H.
  - destruct zs; [|discriminate]. simplify_eq. exists v. split; [done|]. rewrite Hv. f_equal. cbn. lia.
  - destruct zs as [|z1 zs]; [discriminate|]. cbn in Hz. injection Hz as Hw Hz. unfold int_of in Hw.
    destruct (mv_value w) as [| |z1'| | |] eqn:Ew; try discriminate. injection Hw as ->.
    cbn [qstep] in H. unfold QuotaMergeDelta in H. rewrite Hv, Ew in H. cbn [same_case negb] in H.
    destruct (add64 Strict z z1) as [s| | |] eqn:Ea; try discriminate. cbn [obind] in H.
    assert (s = z + z1) as -> by (apply add64_strict in Ea as [? ?]; done).
    eapply IH in H as (x & -> & Hx); [|reflexivity|exact Hz]. exists x. split; [done|]. rewrite Hx, sum_Z_cons. f_equal. lia.
Qed.
Lemma qdelta_ints_ok v z vs zs : mv_value v = VInt64 z -> ints_are vs zs ->
  (forall k, int64_min <= z + sum_Z (take k zs) <= int64_max) -> is_ok (ofold qstep (Some v) vs) = true.
Proof.
  unfold ints_are. revert v z zs. induction vs as [|w vs IH]; intros v z zs Hv Hz Hp; cbn [ofold]; [done|].
  destruct zs as [|z1 zs]; [discriminate|]. cbn in Hz. injection Hz as Hw Hz. unfold int_of in Hw.
  destruct (mv_value w) as [| |z1'| | |] eqn:Ew; try discriminate. injection Hw as ->.
  cbn [qstep]. unfold QuotaMergeDelta. rewrite Hv, Ew. cbn [same_case negb].
  assert (forall k, int64_min <= z + z1 + sum_Z (take k zs) <= int64_max) as Hp'.
  { intros k. specialize (Hp (S k)). cbn [take] in Hp. rewrite sum_Z_cons in Hp. lia. }
  rewrite add64_fits. 2: { specialize (Hp' 0%nat). change (sum_Z (take 0 zs)) with 0 in Hp'. lia. }
  cbn [obind]. eapply IH; [reflexivity|exact Hz|exact Hp'].
Qed.

Definition emit_q (ord : hash_order) (st : gmap string metric_value) : list metric_value_set :=
  (fun nv => MetricValueSet nv.1 [nv.2]) <$> ho_list ord st.
Lemma emit_q_named ord st name : named name (emit_q ord st) = match st !! name with Some v => [v] | None => [] end.
Proof.
  unfold named, emit_q. rewrite filter_fmap_. rewrite (filter_ext_in _ (fun kv : string * metric_value => kv.1 = name)) by done.
  destruct (st !! name) as [v|] eqn:E.
  - rewrite (filter_key _ name v); [done|apply ho_nodup|by apply ho_elem].
  - rewrite filter_no_key; [done|]. intros ([k m] & -> & H'%ho_elem)%elem_of_list_fmap. cbn in *. congruence.
Qed.

Lemma simple_firsts name ops : Forall simple_quota ops ->
  firsts name (ops ≫= qo_metrics) = ops ≫= amounts_of name.
Proof.
  intros H. unfold firsts, amounts_of. rewrite filter_bind, bind_assoc_.
  induction H as [|o ops Ho H IH]; [done|]. rewrite !bind_cons, IH. f_equal.
  assert (forall s, s ∈ qo_metrics o -> take 1 (mvs_values s) = mvs_values s) as Ht.
  { intros s Hs. destruct (Ho s Hs) as (v & z & -> & _). done. }
  clear - Ht. revert Ht. induction (qo_metrics o) as [|s l IH]; intros Ht; [done|]. rewrite !filter_cons.
  destruct (decide _); [|apply IH; intros; apply Ht; by constructor].
  rewrite !bind_cons, Ht by constructor. f_equal. apply IH. intros. apply Ht. by constructor.
Qed.
Lemma simple_ints name ops : Forall simple_quota ops -> exists zs, ints_are (ops ≫= amounts_of name) zs.
Proof.
  intros H. assert (forall v, v ∈ ops ≫= amounts_of name -> exists z, mv_value v = VInt64 z) as Hall.
  { intros v (o & Hv & Ho)%elem_of_list_bind. unfold amounts_of in Hv. apply elem_of_list_bind in Hv as (s & Hv & Hs).
    apply elem_of_list_filter in Hs as [_ Hs]. rewrite Forall_forall in H. destruct (H o Ho s Hs) as (v' & z & E & Ev).
    rewrite E in Hv. apply elem_of_list_singleton in Hv. subst. eauto. }
  revert Hall. generalize (ops ≫= amounts_of name). intros l Hall. unfold ints_are.
  induction l as [|x l IH]; [by exists []|].
  destruct IH as [zs Hz]; [intros y Hy; apply Hall; by constructor|].
  destruct (Hall x) as [z Hx]; [constructor|]. exists (z :: zs). rewrite !fmap_cons. unfold int_of at 1. by rewrite Hx, Hz.
Qed.

Lemma quota_totals ord first rest out : quota_aggregate debug ord first rest = Ok out -> Forall simple_quota (first :: rest) ->
  NoDup (mvs_name <$> qo_metrics out) /\
  (forall n, n ∈ mvs_name <$> qo_metrics out <-> exists o, o ∈ first :: rest /\ n ∈ mvs_name <$> qo_metrics o) /\
  (forall name zs, ints_are ((first :: rest) ≫= amounts_of name) zs -> zs <> [] ->
     exists v, amounts_of name out = [v] /\ mv_value v = VInt64 (sum_Z zs)) /\
  qo_id out = qo_id first /\ qo_method out = qo_method first /\ qo_consumer out = qo_consumer first /\
  qo_labels out = qo_labels first /\ qo_mode out = qo_mode first.
Proof.
  rewrite quota_aggregate_run. destruct (ofold _ ∅ _) as [st| | |] eqn:E; try discriminate. cbn [obind].
  intros [= <-] Hsimple. apply qsets_look in E as [L D]. split_and!; try done.
  - cbn [QuotaToOperationProto qo_metrics qa_sets]. rewrite <- list_fmap_compose. apply (ho_nodup ord st).
  - intros n. cbn [QuotaToOperationProto qo_metrics qa_sets]. rewrite <- list_fmap_compose.
    assert (n ∈ (mvs_name ∘ (fun nv : string * metric_value => MetricValueSet nv.1 [nv.2])) <$> ho_list ord st <-> n ∈ dom st) as ->.
    { rewrite elem_of_dom, elem_of_list_fmap. split.
      - intros ([k v] & -> & H%ho_elem). cbn. eauto.
      - intros [v H]. exists (n, v). split; [done|]. by apply ho_elem. }
    rewrite D, dom_empty_L, elem_of_union, elem_of_list_to_set. split.
    + intros [?|(s & -> & (o & ? & ?)%elem_of_list_bind)%elem_of_list_fmap]; [set_solver|].
      exists o. split; [done|]. apply elem_of_list_fmap. eauto.
    + intros (o & Ho & (s & -> & Hs)%elem_of_list_fmap). right. apply elem_of_list_fmap. exists s. split; [done|].
      apply elem_of_list_bind. eauto.
  - intros name zs Hz Hne. specialize (L name). rewrite lookup_empty, simple_firsts in L by done.
    change (amounts_of name _) with (named name (emit_q ord st)). rewrite emit_q_named.
    unfold ints_are in Hz. destruct ((first :: rest) ≫= amounts_of name) as [|v vs]; [by destruct zs|].
    destruct zs as [|z zs]; [done|]. cbn in Hz. injection Hz as Hv Hz. unfold int_of in Hv.
    destruct (mv_value v) eqn:Ev; try discriminate. injection Hv as ->.
    cbn [ofold qstep obind] in L. apply (qdelta_ints v z vs zs) in L as (w & Ew & Hw); [|done..].
    rewrite Ew. exists w. split; [done|]. by rewrite sum_Z_cons.
Qed.

Lemma quota_defined ord first rest : Forall simple_quota (first :: rest) ->
  (forall name zs, ints_are ((first :: rest) ≫= amounts_of name) zs -> prefix_sums_fit zs) ->
  exists out, quota_aggregate debug ord first rest = Ok out.
Proof.
  intros Hs Hf. rewrite quota_aggregate_run.
  assert (exists st, ofold (quota_merge_set debug) ∅ ((first :: rest) ≫= qo_metrics) = Ok st) as [st ->]; [|by eexists].
  assert (forall s, s ∈ (first :: rest) ≫= qo_metrics -> exists v, mvs_values s = [v]) as Hone.
  { intros s (o & Hin & Ho)%elem_of_list_bind. rewrite Forall_forall in Hs. destruct (Hs o Ho s Hin) as (v & z & ? & _). eauto. }
  assert (forall name, is_ok (ofold qstep ((∅ : gmap string metric_value) !! name) (firsts name ((first :: rest) ≫= qo_metrics))) = true) as Hk.
  { intros name. rewrite lookup_empty, simple_firsts by done. destruct (simple_ints name (first :: rest) Hs) as [zs Hz].
    specialize (Hf name zs Hz). unfold ints_are in Hz. destruct ((first :: rest) ≫= amounts_of name) as [|v vs]; [done|].
    destruct zs as [|z zs]; [done|]. cbn in Hz. injection Hz as Hv Hz. unfold int_of in Hv.
    destruct (mv_value v) eqn:Ev; try discriminate. injection Hv as ->.
    cbn [ofold qstep obind]. eapply qdelta_ints_ok; [exact Ev|exact Hz|].
    intros k. specialize (Hf (S k)). cbn [take] in Hf. by rewrite sum_Z_cons in Hf. }
  revert Hone Hk. generalize ((first :: rest) ≫= qo_metrics), (∅ : gmap string metric_value). clear.
  intros sets. induction sets as [|s sets IH]; intros st Hone Hk; cbn [ofold]; [by eexists|].
  destruct (Hone s) as [v Ev]; [constructor|].
  pose proof (Hk (mvs_name s)) as Hs. unfold firsts in Hs. rewrite filter_cons_True, bind_cons, Ev in Hs by done.
  cbn [take app ofold] in Hs.
  assert (exists r, quota_merge_set debug st s = Ok (<[mvs_name s := r]> st) /\ qstep (st !! mvs_name s) v = Ok (Some r)) as (r & E & Er).
  { unfold quota_merge_set. rewrite Ev. cbn [length Nat.eqb negb]. rewrite andb_false_r.
    destruct (st !! mvs_name s) as [e|]; cbn [qstep] in *; [|by eexists].
    destruct (QuotaMergeDelta v e); try discriminate. by eexists. }
  rewrite E. cbn [obind]. apply IH; [intros; apply Hone; by constructor|].
  intros name. specialize (Hk name). unfold firsts in Hk |- *. rewrite filter_cons in Hk.
  destruct (decide (mvs_name s = name)) as [<-|Hn].
  - rewrite lookup_insert. rewrite bind_cons, Ev in Hk. cbn [take app ofold] in Hk. rewrite Er in Hk. done.
  - rewrite lookup_insert_ne by done. done.
Qed.
End quota.

Lemma quota_only_overflow ord first rest :
  (forall o s, o ∈ first :: rest -> s ∈ qo_metrics o -> mvs_values s <> []) ->
  is_ok (quota_aggregate false ord first rest) = false -> quota_aggregate false ord first rest = UB SignedOverflow.
Proof.
  intros Hne. rewrite quota_aggregate_run.
  assert (forall s, s ∈ (first :: rest) ≫= qo_metrics -> mvs_values s <> []) as Hone.
  { intros s (o & Hin & Ho)%elem_of_list_bind. eauto. }
  assert (is_ok (ofold (quota_merge_set false) ∅ ((first :: rest) ≫= qo_metrics)) = true \/
          ofold (quota_merge_set false) ∅ ((first :: rest) ≫= qo_metrics) = UB SignedOverflow) as [H|H].
  { revert Hone. generalize ((first :: rest) ≫= qo_metrics), (∅ : gmap string metric_value). clear.
    intros sets. induction sets as [|s sets IH]; intros st Hone; cbn [ofold]; [by left|].
    unfold quota_merge_set at 1 3. cbn [andb].
    destruct (mvs_values s) as [|v vs] eqn:Ev; [by destruct (Hone s); [constructor|]|].
    assert (forall st', is_ok (ofold (quota_merge_set false) st' sets) = true \/
      ofold (quota_merge_set false) st' sets = UB SignedOverflow) as IH'.
    { intros st'. apply IH. intros. apply Hone. by constructor. }
    destruct (st !! mvs_name s) as [e|]; cbn [obind]; [|apply IH'].
    unfold QuotaMergeDelta. destruct (negb _); cbn [obind]; [apply IH'|].
    destruct (mv_value e), (mv_value v); cbn [obind]; try apply IH'.
    destruct (add64_cases z z0) as [E|E]; rewrite E; cbn [obind]; [apply IH'|by right]. }
  - destruct (ofold _ _ _); try discriminate.
  - rewrite H. done.
Qed.

(** ** distributions inside operations *)
Lemma merge_status_ok log2 f t lf lt st r : built log2 f lf -> built log2 t lt -> d_option f = d_option t ->
  layout_finite (d_option t) -> Merge f t = Ok (st, r) -> st = SOk.
Proof.
  intros Hf Ht Ho Hl E. apply (merge_accepts _ _ _ _ E). split.
  - apply approx_similar. by apply layout_refl.
  - destruct (built_inv _ _ _ Hf) as (_ & _ & _ & F), (built_inv _ _ _ Ht) as (_ & _ & _ & T). rewrite Ho in F. lia.
Qed.
Lemma merge_option f t st r : Merge f t = Ok (st, r) -> d_option f = d_option t -> d_option r = d_option t.
Proof.
  intros E Ho. apply merge_spec in E as [[_ ->]|[(_ & _ & ->)|[(_ & _ & _ & ->)|(_ & _ & _ & _ & _ & _ & ?)]]]; done.
Qed.
Lemma dist_fold log2 o v d s vs ds r : layout_finite o ->
  mv_value v = VDist d -> built log2 d s -> d_option d = o ->
  Forall2 (fun w ls => exists dw, mv_value w = VDist dw /\ built log2 dw ls /\ d_option dw = o) vs ds ->
  ofold (fun e v => MergeMetricValue Delta v e) v vs = Ok r ->
  exists dr, mv_value r = VDist dr /\ built log2 dr (s ++ concat ds) /\ d_option dr = o.
Proof.
  intros Hl. revert v d s ds. induction vs as [|w vs IH]; intros v d s ds Hv Hb Ho Hf H; cbn [ofold] in H.
  - inversion Hf; subst. simplify_eq. cbn. rewrite app_nil_r. eauto.
  - inversion Hf as [|? ls ? ds' (dw & Hw & Hbw & How) Hf']; subst. cbn [MergeMetricValue] in H.
    unfold MergeDeltaMetricValue in H. rewrite Hv, Hw in H. cbn [same_case negb] in H.
    destruct (Merge dw d) as [[st d']| | |] eqn:Em; try discriminate. cbn [obind] in H.
    assert (st = SOk) as ->.
    { eapply merge_status_ok; [exact Hbw|exact Hb|done|done|exact Em]. }
    cbn [concat]. rewrite app_assoc.
    eapply IH in H; [exact H|reflexivity|eapply built_merge; eassumption| |done].
    by eapply merge_option.
Qed.
Lemma dists_merged ord md5 kinds first rest out name labels log2 o ls lss :
  aggregate ord md5 kinds first rest = Ok out -> labels_separated ord md5 (first :: rest) -> is_delta kinds name ->
  layout_finite o ->
  Forall2 (fun v samples => exists d, mv_value v = VDist d /\ built log2 d samples /\ d_option d = o)
    (all_values name labels (first :: rest)) (ls :: lss) ->
  exists v d, values_of name labels out = [v] /\ mv_value v = VDist d /\ built log2 d (concat (ls :: lss)) /\ d_option d = o.
Proof.
  intros H Hs Hd Hl Hf. pose proof (aggregate_key _ _ _ _ _ _ name labels H Hs) as K.
  destruct (all_values name labels (first :: rest)) as [|v vs]; [by inversion Hf|].
  apply Forall2_cons in Hf as [(d & Hv & Hb & Ho) Hf']. subst o.
  destruct K as (r & Hr & _ & Hout). rewrite delta_kind in Hr by done.
  destruct (dist_fold log2 _ v d ls vs lss r Hl Hv Hb eq_refl Hf' Hr) as (dr & ? & ? & ?).
  exists r, dr. auto.
Qed.

(** ** refutations *)
Definition w_value (v : mvalue) : metric_value := MetricValue ∅ None None v.
Definition w_operation (vs : list metric_value) : operation :=
  Operation "id" "op" "project:p" None None ∅ [MetricValueSet "m" vs] [] LOW "".
Lemma dropped_type ord md5 : exists out,
  aggregate ord md5 None (w_operation [w_value (VInt64 5)]) [w_operation [w_value (VDouble f_one)]] = Ok out /\
  aggregate ord md5 None (w_operation [w_value (VInt64 5)]) [w_operation []] = Ok out.
Proof.
  rewrite !aggregate_run. unfold run. cbn [mbind list_bind app op_mvs w_operation ofold mvs_name mvs_values].
  unfold merge_set. cbn [mvs_name mvs_values ofold]. rewrite lookup_empty. cbn [default kind_of obind].
  unfold merge_value. rewrite lookup_empty. cbn [obind]. rewrite !lookup_insert. cbn [default ofold obind id].
  rewrite (metric_sig_congr md5 ord ord (w_value (VDouble f_one)) (w_value (VInt64 5))) by done.
  rewrite lookup_insert. cbn [MergeMetricValue]. unfold MergeDeltaMetricValue. cbn [mv_value w_value same_case negb obind ofold].
  rewrite !insert_insert. eexists. split; reflexivity.
Qed.
Definition w_dist1 : distribution := Distribution 1 f_one f_one f_one f_zero [0; 1] (BExplicit [f_one]).
Definition w_dist2 : distribution := Distribution 1 f_one f_one f_one f_zero [0; 1; 0] (BExplicit [f_one; f_two]).
Lemma dropped_layout ord md5 : exists out,
  aggregate ord md5 None (w_operation [w_value (VDist w_dist1)]) [w_operation [w_value (VDist w_dist2)]] = Ok out /\
  aggregate ord md5 None (w_operation [w_value (VDist w_dist1)]) [w_operation []] = Ok out.
Proof.
  rewrite !aggregate_run. unfold run. cbn [mbind list_bind app op_mvs w_operation ofold mvs_name mvs_values].
  unfold merge_set. cbn [mvs_name mvs_values ofold]. rewrite lookup_empty. cbn [default kind_of obind].
  unfold merge_value. rewrite lookup_empty. cbn [obind]. rewrite !lookup_insert. cbn [default ofold obind id].
  match goal with |- context [(<[?k := _]> ∅ !! ?k')] => assert (k' = k) as -> by (by apply metric_sig_congr) end.
  rewrite lookup_insert. cbn [MergeMetricValue]. unfold MergeDeltaMetricValue. cbn [mv_value w_value same_case negb].
  match goal with |- context [Merge ?a ?b] => let r := eval vm_compute in (Merge a b) in change (Merge a b) with r end.
  cbn [obind merge_start merge_end mv_start mv_end mv_labels ofold].
  rewrite !insert_insert. eexists. split; reflexivity.
Qed.
Lemma dropped ord md5 :
  (exists out,
    aggregate ord md5 None (w_operation [w_value (VInt64 5)]) [w_operation [w_value (VDouble f_one)]] = Ok out /\
    aggregate ord md5 None (w_operation [w_value (VInt64 5)]) [w_operation []] = Ok out) /\
  (exists out, d_count w_dist2 = 1 /\
    aggregate ord md5 None (w_operation [w_value (VDist w_dist1)]) [w_operation [w_value (VDist w_dist2)]] = Ok out /\
    aggregate ord md5 None (w_operation [w_value (VDist w_dist1)]) [w_operation []] = Ok out).
Proof. split; [apply dropped_type|]. destruct (dropped_layout ord md5) as (out & ? & ?). exists out. auto. Qed.
Lemma quota_empty_set ord : exists o,
  quota_aggregate false ord o [] = UB IndexOutOfRange /\ quota_aggregate true ord o [] = Abort.
Proof. exists (QuotaOperation "id" "m" "c" ∅ [MetricValueSet "m" []] 1). split; reflexivity. Qed.
