(** Property theorems about src/signature.cc (C07-C12).  Specification: SignatureSpec.v. *)
From Verif Require Import Proto Signature SignatureSpec SignatureProofs.

(** C07, labels: every signature is independent of the iteration order of the label maps. *)
Theorem C07_label_order_irrelevant : forall md5 ord1 ord2,
  (forall o, GenerateReportOperationSignature ord1 md5 o = GenerateReportOperationSignature ord2 md5 o) /\
  (forall mv, GenerateReportMetricValueSignature ord1 md5 mv = GenerateReportMetricValueSignature ord2 md5 mv) /\
  (forall r, GenerateCheckRequestSignature ord1 md5 r = GenerateCheckRequestSignature ord2 md5 r).
Proof. exact label_order_irrelevant. Qed.
Print Assumptions C07_label_order_irrelevant.
Example C07_example : exists (ord1 ord2 : hash_order) (m : gmap string string), ho_list ord1 m <> ho_list ord2 m.
Proof. exact two_orders. Qed.

(** C07, metric sets: order and multiplicity of quota metric names is irrelevant; for check requests with
    distinct metric names the order of the metric sets is irrelevant. *)
Theorem C07_quota_metric_order_irrelevant : forall md5 r1 r2,
  let o1 := qop_get (qr_operation r1) in let o2 := qop_get (qr_operation r2) in
  qo_method o1 = qo_method o2 -> qo_consumer o1 = qo_consumer o2 ->
  metric_names (qo_metrics o1) = metric_names (qo_metrics o2) ->
  GenerateAllocateQuotaRequestSignature md5 r1 = GenerateAllocateQuotaRequestSignature md5 r2.
Proof. exact quota_sig_congr. Qed.
Print Assumptions C07_quota_metric_order_irrelevant.
Example C07_quota_example :
  let s n := MetricValueSet n [MetricValue ∅ None None (VInt64 7)] in
  metric_names [s "b"; s "a"; s "b"] = metric_names [s "a"; s "b"].
Proof. apply (bool_decide_unpack _). vm_compute. exact I. Qed.

Theorem C07_check_metric_order_irrelevant : forall md5 ord1 ord2 r1 r2,
  let o1 := op_get (cr_operation r1) in let o2 := op_get (cr_operation r2) in
  op_name o1 = op_name o2 -> op_consumer o1 = op_consumer o2 -> op_labels o1 = op_labels o2 ->
  op_mvs o1 ≡ₚ op_mvs o2 -> NoDup (mvs_name <$> op_mvs o1) ->
  GenerateCheckRequestSignature ord1 md5 r1 = GenerateCheckRequestSignature ord2 md5 r2.
Proof. exact check_sig_perm. Qed.
Print Assumptions C07_check_metric_order_irrelevant.
Example C07_check_example :
  let s n := MetricValueSet n [MetricValue {["zone" := "z"]} None None (VInt64 7)] in
  [s "b"; s "a"] ≡ₚ [s "a"; s "b"] /\ NoDup (mvs_name <$> [s "b"; s "a"]).
Proof. split; [apply Permutation_swap|]. apply (bool_decide_unpack _). vm_compute. exact I. Qed.

(** C08 *)
Theorem C08_report_signature_separates : forall md5 ord1 ord2 o1 o2, op_nul_free o1 -> op_nul_free o2 ->
  GenerateReportOperationSignature ord1 md5 o1 = GenerateReportOperationSignature ord2 md5 o2 ->
  (op_consumer o1 = op_consumer o2 /\ op_name o1 = op_name o2 /\ op_labels o1 = op_labels o2) \/
  collision md5 (report_operation_bytes ord1 o1) (report_operation_bytes ord2 o2).
Proof. exact report_sig_sound. Qed.
Print Assumptions C08_report_signature_separates.
Example C08_example : op_nul_free w_labels_op /\ op_nul_free w_metrics_op.
Proof. exact w_ops_nul_free. Qed.

(** The NUL-freeness hypothesis of C08 cannot be dropped. *)
Theorem C08_nul_hypothesis_needed : exists o1 o2, op_labels o1 <> op_labels o2 /\ op_name o1 <> op_name o2 /\
  forall md5 ord1 ord2, GenerateReportOperationSignature ord1 md5 o1 = GenerateReportOperationSignature ord2 md5 o2.
Proof. exact report_sig_nul_refuted. Qed.
Print Assumptions C08_nul_hypothesis_needed.

(** C09 *)
Theorem C09_metric_signature_separates : forall md5 ord1 ord2 m1 m2,
  labels_nul_free (mv_labels m1) -> labels_nul_free (mv_labels m2) ->
  GenerateReportMetricValueSignature ord1 md5 m1 = GenerateReportMetricValueSignature ord2 md5 m2 ->
  mv_labels m1 = mv_labels m2 \/ collision md5 (metric_value_bytes ord1 m1) (metric_value_bytes ord2 m2).
Proof. exact metric_sig_sound. Qed.
Print Assumptions C09_metric_signature_separates.
Example C09_example : labels_nul_free {["a" := "b"]}.
Proof. exact (proj1 (proj2 (proj2 (proj1 w_ops_nul_free)))). Qed.

(** C10 *)
Theorem C10_quota_signature_separates : forall md5 r1 r2,
  let o1 := qop_get (qr_operation r1) in let o2 := qop_get (qr_operation r2) in
  qop_nul_free o1 -> qop_nul_free o2 ->
  GenerateAllocateQuotaRequestSignature md5 r1 = GenerateAllocateQuotaRequestSignature md5 r2 ->
  (qo_method o1 = qo_method o2 /\ qo_consumer o1 = qo_consumer o2 /\
   metric_names (qo_metrics o1) = metric_names (qo_metrics o2)) \/
  collision md5 (quota_request_bytes r1) (quota_request_bytes r2).
Proof. exact quota_sig_sound. Qed.
Print Assumptions C10_quota_signature_separates.
Example C10_example : qop_nul_free (QuotaOperation "" "get" "project:p" ∅ [MetricValueSet "reads" []] 0).
Proof. exact w_qop_nul_free. Qed.

(** C11 is false of the code: requests asking different questions share a signature even though no string
    contains a NUL and whatever the digest function is. *)
Theorem C11_check_signature_separates_refuted : exists r1 r2,
  op_nul_free (op_get (cr_operation r1)) /\ op_nul_free (op_get (cr_operation r2)) /\
  check_question r1 <> check_question r2 /\
  forall md5 ord1 ord2, GenerateCheckRequestSignature ord1 md5 r1 = GenerateCheckRequestSignature ord2 md5 r2.
Proof. exact check_sig_refuted. Qed.
Print Assumptions C11_check_signature_separates_refuted.

(** C11 restricted to requests that follow one label schema.  Missing: requests whose numbers of labels differ
    for the same operation or metric name. *)
Theorem C11_check_signature_separates_partial : forall md5 ord1 ord2 r1 r2,
  op_nul_free (op_get (cr_operation r1)) -> op_nul_free (op_get (cr_operation r2)) -> same_label_schema r1 r2 ->
  GenerateCheckRequestSignature ord1 md5 r1 = GenerateCheckRequestSignature ord2 md5 r2 ->
  check_question r1 = check_question r2 \/
  collision md5 (check_request_bytes ord1 r1) (check_request_bytes ord2 r2).
Proof. exact check_sig_sound. Qed.
Print Assumptions C11_check_signature_separates_partial.
Example C11_example :
  let mk z := CheckRequest "s" (Some (Operation "" "op" "c" None None {["zone" := z]}
     [MetricValueSet "m" [MetricValue {["k" := z]} None None (VInt64 1)]] [] LOW "")) "" "" in
  same_label_schema (mk "us") (mk "eu") /\ check_question (mk "us") <> check_question (mk "eu").
Proof. exact schema_example. Qed.

(** C12: requests that agree on the hashed fields share a signature, whatever their ids, times, values,
    importance, log entries, config ids. *)
Theorem C12_report_signature_ignores_rest : forall md5 ord1 ord2 o1 o2,
  op_consumer o1 = op_consumer o2 -> op_name o1 = op_name o2 -> op_labels o1 = op_labels o2 ->
  GenerateReportOperationSignature ord1 md5 o1 = GenerateReportOperationSignature ord2 md5 o2.
Proof. exact report_sig_congr. Qed.
Print Assumptions C12_report_signature_ignores_rest.
Theorem C12_metric_signature_ignores_rest : forall md5 ord1 ord2 m1 m2, mv_labels m1 = mv_labels m2 ->
  GenerateReportMetricValueSignature ord1 md5 m1 = GenerateReportMetricValueSignature ord2 md5 m2.
Proof. exact metric_sig_congr. Qed.
Print Assumptions C12_metric_signature_ignores_rest.
Theorem C12_check_signature_ignores_rest : forall md5 ord1 ord2 r1 r2, check_question r1 = check_question r2 ->
  GenerateCheckRequestSignature ord1 md5 r1 = GenerateCheckRequestSignature ord2 md5 r2.
Proof. exact check_sig_congr. Qed.
Print Assumptions C12_check_signature_ignores_rest.
Theorem C12_quota_signature_ignores_rest : forall md5 r1 r2,
  let o1 := qop_get (qr_operation r1) in let o2 := qop_get (qr_operation r2) in
  qo_method o1 = qo_method o2 -> qo_consumer o1 = qo_consumer o2 ->
  mvs_name <$> qo_metrics o1 = mvs_name <$> qo_metrics o2 ->
  GenerateAllocateQuotaRequestSignature md5 r1 = GenerateAllocateQuotaRequestSignature md5 r2.
Proof. exact quota_sig_congr_names. Qed.
Print Assumptions C12_quota_signature_ignores_rest.
Example C12_example :
  check_question (CheckRequest "s" (Some (Operation "id1" "op" "c" (Some (Ts 1 2)) None {["a" := "b"]}
     [MetricValueSet "m" [MetricValue ∅ None None (VInt64 1)]] ["log"] 1 "x")) "cfg1" "") =
  check_question (CheckRequest "t" (Some (Operation "id2" "op" "c" None (Some (Ts 3 4)) {["a" := "b"]}
     [MetricValueSet "m" [MetricValue ∅ (Some (Ts 0 0)) None (VBool true)]] [] 0 "y")) "cfg2" "z").
Proof. vm_compute. reflexivity. Qed.
