(** Property theorems about operation aggregation (C13-C22).  Specification: OpAggSpec.v.
    [ord]: any hash table iteration order; [md5]: any digest; [kinds]: any registered metric kinds. *)
From Verif Require Import Proto Signature Distribution DistributionSpec Float64Proofs OpAgg OpAggSpec OpAggProofs QuotaOpAggProofs.

(** Two operations used in the examples. *)
Definition ex_mv (z s e : Z) (l : string) : metric_value :=
  MetricValue {["l" := l]} (Some (Ts s 0)) (Some (Ts e 0)) (VInt64 z).
Definition ex_op1 : operation :=
  Operation "id1" "op" "project:p" (Some (Ts 10 0)) (Some (Ts 20 0)) ∅
    [MetricValueSet "a" [ex_mv 5 10 20 "x"; ex_mv 7 10 20 "y"]; MetricValueSet "b" []] ["log1"] LOW "".
Definition ex_op2 : operation :=
  Operation "id2" "op" "project:p" (Some (Ts 5 0)) None ∅
    [MetricValueSet "a" [ex_mv 8 5 30 "x"]] ["log2"; "log3"] LOW "".
(** with the identity as digest nothing collides *)
Definition ex_md5 (s : string) : string := s.
Lemma ex_separated : labels_separated default_order ex_md5 [ex_op1; ex_op2].
Proof.
  intros o1 o2 s1 s2 v1 v2 Ho1 Ho2 Hs1 Hs2 Hv1 Hv2.
  assert (forall v : metric_value, v ∈ [ex_mv 5 10 20 "x"; ex_mv 7 10 20 "y"; ex_mv 8 5 30 "x"] ->
    mv_labels v = {["l" := "x"]} \/ mv_labels v = {["l" := "y"]}) as L.
  { intros v [->|[->|[->|[]%elem_of_nil]%elem_of_cons]%elem_of_cons]%elem_of_cons; auto. }
  assert (forall (o : operation) s v, o ∈ [ex_op1; ex_op2] -> s ∈ op_mvs o -> v ∈ mvs_values s ->
    v ∈ [ex_mv 5 10 20 "x"; ex_mv 7 10 20 "y"; ex_mv 8 5 30 "x"]) as M.
  { intros o s v [->|[->|[]%elem_of_nil]%elem_of_cons]%elem_of_cons; cbn [op_mvs ex_op1 ex_op2].
    - intros [->|[->|[]%elem_of_nil]%elem_of_cons]%elem_of_cons; cbn [mvs_values]; [|by intros ?%elem_of_nil].
      intros [->|[->|[]%elem_of_nil]%elem_of_cons]%elem_of_cons; set_solver.
    - intros ->%elem_of_list_singleton; cbn [mvs_values]. intros ->%elem_of_list_singleton. set_solver. }
  pose proof (M _ _ _ Ho1 Hs1 Hv1) as K1. pose proof (M _ _ _ Ho2 Hs2 Hv2) as K2. apply L in K1, K2.
  unfold GenerateReportMetricValueSignature, metric_value_bytes, UpdateHashMetricValue, ex_md5.
  destruct K1 as [-> | ->], K2 as [-> | ->]; try done; vm_compute; discriminate.
Qed.
Lemma ex_runs : exists out, aggregate default_order ex_md5 None ex_op1 [ex_op2] = Ok out.
Proof. eexists. vm_compute. reflexivity. Qed.

(** C13 *)
Theorem C13_int64_totals : forall ord md5 kinds first rest out name labels zs,
  aggregate ord md5 kinds first rest = Ok out -> labels_separated ord md5 (first :: rest) ->
  is_delta kinds name -> ints_are (all_values name labels (first :: rest)) zs -> zs <> [] ->
  exists v, values_of name labels out = [v] /\ mv_value v = VInt64 (sum_Z zs).
Proof. exact ints_total. Qed.
Print Assumptions C13_int64_totals.
(** Aggregation of int64 metrics is defined whenever the partial sums fit. *)
Theorem C13_defined : forall ord md5 kinds first rest,
  labels_separated ord md5 (first :: rest) ->
  (forall o s v, o ∈ first :: rest -> s ∈ op_mvs o -> v ∈ mvs_values s -> exists z, mv_value v = VInt64 z) ->
  (forall name labels zs, is_delta kinds name -> ints_are (all_values name labels (first :: rest)) zs -> prefix_sums_fit zs) ->
  exists out, aggregate ord md5 kinds first rest = Ok out.
Proof. exact aggregate_defined. Qed.
Print Assumptions C13_defined.
Example C13_example : ints_are (all_values "a" {["l" := "x"]} [ex_op1; ex_op2]) [5; 8] /\ is_delta None "a".
Proof. split; [vm_compute; reflexivity|exact I]. Qed.

(** C14 *)
Theorem C14_operation_span : forall ord md5 kinds first rest out, aggregate ord md5 kinds first rest = Ok out ->
  earliest (op_start <$> first :: rest) (op_start out) /\ latest (op_end <$> first :: rest) (op_end out).
Proof. exact operation_span. Qed.
Print Assumptions C14_operation_span.
Theorem C14_value_span : forall ord md5 kinds first rest out name labels,
  aggregate ord md5 kinds first rest = Ok out -> labels_separated ord md5 (first :: rest) -> is_delta kinds name ->
  all_values name labels (first :: rest) <> [] -> one_type (all_values name labels (first :: rest)) ->
  exists v, values_of name labels out = [v] /\
    earliest (mv_start <$> all_values name labels (first :: rest)) (mv_start v) /\
    latest (mv_end <$> all_values name labels (first :: rest)) (mv_end v).
Proof. exact value_span. Qed.
Print Assumptions C14_value_span.
Example C14_example : earliest [Some (Ts 10 0); None; Some (Ts 5 0)] (Some (Ts 5 0)) /\
  ~ earliest [Some (Ts 10 0); None; Some (Ts 5 0)] (Some (Ts 10 0)).
Proof.
  split.
  - split; [set_solver|]. intros t' H. assert (t' = Ts 10 0 \/ t' = Ts 5 0) as [-> | ->] by set_solver; unfold ts_lt; cbn; lia.
  - intros [_ H]. apply (H (Ts 5 0)); [set_solver|]. left. cbn. lia.
Qed.

(** C15 *)
Theorem C15_latest_value_kept : forall ord md5 kinds first rest out name labels,
  aggregate ord md5 kinds first rest = Ok out -> labels_separated ord md5 (first :: rest) ->
  ~ is_delta kinds name -> all_values name labels (first :: rest) <> [] ->
  exists v before after, values_of name labels out = [v] /\
    all_values name labels (first :: rest) = before ++ v :: after /\
    (forall w, w ∈ before -> ~ ts_lt (end_of v) (end_of w)) /\ (forall w, w ∈ after -> ts_lt (end_of w) (end_of v)).
Proof. exact gauge_latest. Qed.
Print Assumptions C15_latest_value_kept.
Example C15_example : ~ is_delta (Some {["a" := Gauge]}) "a" /\ is_delta (Some {["a" := Gauge]}) "b" /\
  exists out, aggregate default_order ex_md5 (Some {["a" := Gauge]}) ex_op1 [ex_op2] = Ok out /\
    values_of "a" {["l" := "x"]} out = [ex_mv 8 5 30 "x"].
Proof.
  split; [intros [H|H]; vm_compute in H; discriminate|]. split; [left; reflexivity|].
  eexists. split; vm_compute; reflexivity.
Qed.

(** C16 *)
Theorem C16_log_entries : forall ord md5 kinds first rest out, aggregate ord md5 kinds first rest = Ok out ->
  op_logs out = concat (op_logs <$> first :: rest).
Proof. exact logs_concat. Qed.
Print Assumptions C16_log_entries.
Example C16_example : exists out, aggregate default_order ex_md5 None ex_op1 [ex_op2] = Ok out /\
  op_logs out = ["log1"; "log2"; "log3"].
Proof. eexists. split; vm_compute; reflexivity. Qed.

(** C17 *)
Theorem C17_names_once : forall ord md5 kinds first rest out, aggregate ord md5 kinds first rest = Ok out ->
  NoDup (names_of out) /\ (forall n, n ∈ names_of out <-> exists o, o ∈ first :: rest /\ n ∈ names_of o).
Proof. exact names_once. Qed.
Print Assumptions C17_names_once.
Theorem C17_label_sets_once : forall ord md5 kinds first rest out name labels,
  aggregate ord md5 kinds first rest = Ok out -> labels_separated ord md5 (first :: rest) ->
  match all_values name labels (first :: rest) with
  | [] => values_of name labels out = []
  | _ => exists v, values_of name labels out = [v]
  end.
Proof. exact label_sets_once. Qed.
Print Assumptions C17_label_sets_once.
Example C17_example : labels_separated default_order ex_md5 [ex_op1; ex_op2] /\
  exists out, aggregate default_order ex_md5 None ex_op1 [ex_op2] = Ok out /\ length (values_of "a" {["l" := "x"]} out) = 1%nat.
Proof. split; [exact ex_separated|]. eexists. split; vm_compute; reflexivity. Qed.

(** C18 *)
Theorem C18_identity_of_first : forall ord md5 kinds first rest out, aggregate ord md5 kinds first rest = Ok out ->
  op_id out = op_id first /\ op_name out = op_name first /\ op_consumer out = op_consumer first /\
  op_labels out = op_labels first /\ op_importance out = op_importance first /\ op_rest out = op_rest first.
Proof. exact identity_first. Qed.
Print Assumptions C18_identity_of_first.
Example C18_example : exists out, aggregate default_order ex_md5 None ex_op1 [ex_op2] = Ok out /\ op_id out = "id1".
Proof. eexists. split; vm_compute; reflexivity. Qed.

(** C19 is false of the code: a double merged into an int64 (or a distribution of another layout) leaves no trace. *)
Theorem C19_no_data_dropped_refuted : forall ord md5,
  (exists out,
    aggregate ord md5 None (w_operation [w_value (VInt64 5)]) [w_operation [w_value (VDouble f_one)]] = Ok out /\
    aggregate ord md5 None (w_operation [w_value (VInt64 5)]) [w_operation []] = Ok out) /\
  (exists out, d_count w_dist2 = 1 /\
    aggregate ord md5 None (w_operation [w_value (VDist w_dist1)]) [w_operation [w_value (VDist w_dist2)]] = Ok out /\
    aggregate ord md5 None (w_operation [w_value (VDist w_dist1)]) [w_operation []] = Ok out).
Proof. exact dropped. Qed.
Print Assumptions C19_no_data_dropped_refuted.
(** C19 for one value type: doubles are added in order of arrival. *)
Theorem C19_doubles_partial : forall ord md5 kinds first rest out name labels d ds,
  aggregate ord md5 kinds first rest = Ok out -> labels_separated ord md5 (first :: rest) -> is_delta kinds name ->
  mv_value <$> all_values name labels (first :: rest) = VDouble <$> d :: ds ->
  exists v, values_of name labels out = [v] /\ mv_value v = VDouble (foldl fadd d ds).
Proof. exact doubles_total. Qed.
Print Assumptions C19_doubles_partial.
(** C19 for distributions of one layout: the emitted distribution holds every sample. *)
Theorem C19_distributions_partial : forall ord md5 kinds first rest out name labels log2 o ls lss,
  aggregate ord md5 kinds first rest = Ok out -> labels_separated ord md5 (first :: rest) -> is_delta kinds name ->
  layout_finite o ->
  Forall2 (fun v samples => exists d, mv_value v = VDist d /\ built log2 d samples /\ d_option d = o)
    (all_values name labels (first :: rest)) (ls :: lss) ->
  exists v d, values_of name labels out = [v] /\ mv_value v = VDist d /\ built log2 d (concat (ls :: lss)) /\ d_option d = o.
Proof. exact dists_merged. Qed.
Print Assumptions C19_distributions_partial.
Example C19_example : exists out,
  aggregate default_order ex_md5 None (w_operation [w_value (VDist w_dist1)]) [w_operation [w_value (VDist w_dist1)]] = Ok out /\
  (fun v => match mv_value v with VDist d => d_buckets d | _ => [] end) <$> values_of "m" ∅ out = [[0; 2]].
Proof. eexists. split; vm_compute; reflexivity. Qed.

(** C20 *)
Theorem C20_order_independent : forall ord1 ord2 md5 kinds f1 r1 f2 r2 out1 out2,
  f1 :: r1 ≡ₚ f2 :: r2 ->
  aggregate ord1 md5 kinds f1 r1 = Ok out1 -> aggregate ord2 md5 kinds f2 r2 = Ok out2 ->
  labels_separated ord1 md5 (f1 :: r1) ->
  op_start out1 = op_start out2 /\ op_end out1 = op_end out2 /\
  (forall n, n ∈ names_of out1 <-> n ∈ names_of out2) /\
  (forall name labels, length (values_of name labels out1) = length (values_of name labels out2)) /\
  (forall name labels zs, is_delta kinds name -> ints_are (all_values name labels (f1 :: r1)) zs ->
     mv_value <$> values_of name labels out1 = mv_value <$> values_of name labels out2).
Proof. exact merge_order. Qed.
Print Assumptions C20_order_independent.
Example C20_example : exists out1 out2, aggregate default_order ex_md5 None ex_op1 [ex_op2] = Ok out1 /\
  aggregate default_order ex_md5 None ex_op2 [ex_op1] = Ok out2 /\ out1 <> out2.
Proof. eexists _, _. split; [vm_compute; reflexivity|]. split; [vm_compute; reflexivity|]. discriminate. Qed.

(** C21 *)
Theorem C21_quota_totals : forall debug ord first rest out,
  quota_aggregate debug ord first rest = Ok out -> Forall simple_quota (first :: rest) ->
  NoDup (mvs_name <$> qo_metrics out) /\
  (forall n, n ∈ mvs_name <$> qo_metrics out <-> exists o, o ∈ first :: rest /\ n ∈ mvs_name <$> qo_metrics o) /\
  (forall name zs, ints_are ((first :: rest) ≫= amounts_of name) zs -> zs <> [] ->
     exists v, amounts_of name out = [v] /\ mv_value v = VInt64 (sum_Z zs)) /\
  qo_id out = qo_id first /\ qo_method out = qo_method first /\ qo_consumer out = qo_consumer first /\
  qo_labels out = qo_labels first /\ qo_mode out = qo_mode first.
Proof. exact quota_totals. Qed.
Print Assumptions C21_quota_totals.
Theorem C21_quota_defined : forall debug ord first rest, Forall simple_quota (first :: rest) ->
  (forall name zs, ints_are ((first :: rest) ≫= amounts_of name) zs -> prefix_sums_fit zs) ->
  exists out, quota_aggregate debug ord first rest = Ok out.
Proof. exact quota_defined. Qed.
Print Assumptions C21_quota_defined.
Definition ex_qop (z : Z) : quota_operation :=
  QuotaOperation "id" "method" "project:p" ∅ [MetricValueSet "m" [w_value (VInt64 z)]] QUOTA_NORMAL.
Example C21_example : Forall simple_quota [ex_qop 1; ex_qop 2] /\
  exists out, quota_aggregate true default_order (ex_qop 1) [ex_qop 2] = Ok out /\
    mv_value <$> amounts_of "m" out = [VInt64 3].
Proof.
  split.
  - repeat constructor; intros s Hs%elem_of_list_singleton; subst; eauto.
  - eexists. split; vm_compute; reflexivity.
Qed.

(** C22 is false of the code: a metric set without values reads out of bounds, or fails the debug check. *)
Theorem C22_quota_merge_safe_refuted : forall ord, exists o,
  quota_aggregate false ord o [] = UB IndexOutOfRange /\ quota_aggregate true ord o [] = Abort.
Proof. exact quota_empty_set. Qed.
Print Assumptions C22_quota_merge_safe_refuted.
(** C22 when every metric set has a value: only an overflow of an int64 sum is undefined. *)
Theorem C22_quota_merge_safe_partial : forall ord first rest,
  (forall o s, o ∈ first :: rest -> s ∈ qo_metrics o -> mvs_values s <> []) ->
  is_ok (quota_aggregate false ord first rest) = false -> quota_aggregate false ord first rest = UB SignedOverflow.
Proof. exact quota_only_overflow. Qed.
Print Assumptions C22_quota_merge_safe_partial.
Example C22_example : quota_aggregate false default_order (ex_qop int64_max) [ex_qop 1] = UB SignedOverflow.
Proof. vm_compute. reflexivity. Qed.
