(** Model of src/operation_aggregator.cc and src/quota_operation_aggregator.cc. *)
From Verif Require Import Proto Signature Distribution.

(** src/operation_aggregator.cc:42-45 and src/quota_operation_aggregator.cc:38-41 TimestampBefore *)
Definition TimestampBefore (a b : timestamp) : bool :=
  (ts_seconds a <? ts_seconds b) || ((ts_seconds a =? ts_seconds b) && (ts_nanos a <? ts_nanos b)).

(** MetricDescriptor::MetricKind *)
Inductive metric_kind := KindUnspecified | Gauge | Delta | Cumulative.

(** src/operation_aggregator.cc:51-56 MergeCumulativeOrGaugeMetricValue *)
Definition MergeCumulativeOrGaugeMetricValue (from to : metric_value) : metric_value :=
  if TimestampBefore (ts_get (mv_end from)) (ts_get (mv_end to)) then to else from.

(** to->value_case() == from.value_case() *)
Definition same_case (a b : mvalue) : bool :=
  match a, b with
  | VNone, VNone | VBool _, VBool _ | VInt64 _, VInt64 _ | VDouble _, VDouble _ | VString _, VString _
  | VDist _, VDist _ => true
  | _, _ => false
  end.

(** src/operation_aggregator.cc:73-78 (and 128-133, quota 53-58): the earlier of two optional start times *)
Definition merge_start (from to : option timestamp) : option timestamp :=
  match from, to with
  | None, _ => to
  | Some f, None => Some f
  | Some f, Some t => if TimestampBefore f t then Some f else Some t
  end.
(** src/operation_aggregator.cc:80-85 (and 135-140, quota 60-65): the later of two optional end times *)
Definition merge_end (from to : option timestamp) : option timestamp :=
  match from, to with
  | None, _ => to
  | Some f, None => Some f
  | Some f, Some t => if TimestampBefore t f then Some f else Some t
  end.

(** src/operation_aggregator.cc:66-102 MergeDeltaMetricValue.  Logging is not modelled. *)
Definition MergeDeltaMetricValue (from to : metric_value) : outcome metric_value :=
  if negb (same_case (mv_value to) (mv_value from)) then Ok to
  else
    let start := merge_start (mv_start from) (mv_start to) in
    let fin := merge_end (mv_end from) (mv_end to) in
    let! v := match mv_value to, mv_value from with
              | VInt64 a, VInt64 b => let! c := add64 Strict a b in Ok (VInt64 c)
              | VDouble a, VDouble b => Ok (VDouble (fadd a b))
              | VDist a, VDist b => let! (_, d) := Merge b a in Ok (VDist d)
              | v, _ => Ok v
              end in
    Ok (MetricValue (mv_labels to) start fin v).

(** src/operation_aggregator.cc:105-112 MergeMetricValue *)
Definition MergeMetricValue (kind : metric_kind) (from to : metric_value) : outcome metric_value :=
  match kind with
  | Delta => MergeDeltaMetricValue from to
  | _ => Ok (MergeCumulativeOrGaugeMetricValue from to)
  end.

(** src/operation_aggregator.h:60-74: operation_ (without metric value sets) and metric_value_sets_ *)
Record opagg := OpAgg { oa_operation : operation; oa_sets : gmap string (gmap string metric_value) }.

Section opagg.
Variable ord : hash_order.
Variable md5 : string -> string.
(** metric_kinds_: a null pointer or a map *)
Variable kinds : option (gmap string metric_kind).

(** src/operation_aggregator.cc:177-182: the kind of a metric *)
Definition kind_of (name : string) : metric_kind :=
  match kinds with
  | None => Delta
  | Some m => default Delta (m !! name)
  end.

(** src/operation_aggregator.cc:183-191: one metric value into the map of one metric *)
Definition merge_value (kind : metric_kind) (m : gmap string metric_value) (mv : metric_value)
  : outcome (gmap string metric_value) :=
  let signature := GenerateReportMetricValueSignature ord md5 mv in
  match m !! signature with
  | None => Ok (<[signature := mv]> m)
  | Some existing => let! v := MergeMetricValue kind mv existing in Ok (<[signature := v]> m)
  end.

(** src/operation_aggregator.cc:172-192: one metric value set *)
Definition merge_set (sets : gmap string (gmap string metric_value)) (s : metric_value_set)
  : outcome (gmap string (gmap string metric_value)) :=
  let metric_values := default ∅ (sets !! mvs_name s) in
  let! m := ofold (merge_value (kind_of (mvs_name s))) metric_values (mvs_values s) in
  Ok (<[mvs_name s := m]> sets).

(** src/operation_aggregator.cc:171-193 MergeMetricValueSets *)
Definition MergeMetricValueSets (o : operation) (sets : gmap string (gmap string metric_value)) :=
  ofold merge_set sets (op_mvs o).

(** src/operation_aggregator.cc:116-125, the constructor *)
Definition NewOperationAggregator (o : operation) : outcome opagg :=
  let! sets := MergeMetricValueSets o ∅ in
  Ok (OpAgg (Operation (op_id o) (op_name o) (op_consumer o) (op_start o) (op_end o) (op_labels o) []
               (op_logs o) (op_importance o) (op_rest o)) sets).

(** src/operation_aggregator.cc:127-144 MergeOperation, with 165-169 MergeLogEntries *)
Definition MergeOperation (o : operation) (a : opagg) : outcome opagg :=
  let p := oa_operation a in
  let! sets := MergeMetricValueSets o (oa_sets a) in
  Ok (OpAgg (Operation (op_id p) (op_name p) (op_consumer p) (merge_start (op_start o) (op_start p))
               (merge_end (op_end o) (op_end p)) (op_labels p) (op_mvs p) (op_logs p ++ op_logs o)
               (op_importance p) (op_rest p)) sets).

(** src/operation_aggregator.cc:146-148 TooBig, 39 kMaxLogEntries *)
Definition kMaxLogEntries : nat := 100.
Definition TooBig (a : opagg) : bool := Nat.leb kMaxLogEntries (length (op_logs (oa_operation a))).

(** src/operation_aggregator.cc:150-163 ToOperationProto *)
Definition ToOperationProto (a : opagg) : operation :=
  let p := oa_operation a in
  Operation (op_id p) (op_name p) (op_consumer p) (op_start p) (op_end p) (op_labels p)
    (op_mvs p ++ ((fun nm => MetricValueSet nm.1 (snd <$> ho_list ord nm.2)) <$> ho_list ord (oa_sets a)))
    (op_logs p) (op_importance p) (op_rest p).
End opagg.

(** ** src/quota_operation_aggregator.cc *)

(** src/quota_operation_aggregator.cc:47-76 MergeDeltaMetricValue *)
Definition QuotaMergeDelta (from to : metric_value) : outcome metric_value :=
  if negb (same_case (mv_value to) (mv_value from)) then Ok to
  else
    let start := merge_start (mv_start from) (mv_start to) in
    let fin := merge_end (mv_end from) (mv_end to) in
    let! v := match mv_value to, mv_value from with
              | VInt64 a, VInt64 b => let! c := add64 Strict a b in Ok (VInt64 c)
              | v, _ => Ok v
              end in
    Ok (MetricValue (mv_labels to) start fin v).

Record qopagg := QOpAgg { qa_operation : quota_operation; qa_sets : gmap string metric_value }.

(** src/quota_operation_aggregator.cc:87-97: one metric value set.  [debug]: GOOGLE_DCHECK is compiled in.
    metric_values(0) of an empty repeated field is undefined. *)
Definition quota_merge_set (debug : bool) (sets : gmap string metric_value) (s : metric_value_set)
  : outcome (gmap string metric_value) :=
  if debug && negb (Nat.eqb (length (mvs_values s)) 1) then Abort
  else match mvs_values s with
       | [] => UB IndexOutOfRange
       | mv :: _ =>
         match sets !! mvs_name s with
         | None => Ok (<[mvs_name s := mv]> sets)
         | Some found => let! v := QuotaMergeDelta mv found in Ok (<[mvs_name s := v]> sets)
         end
       end.

(** src/quota_operation_aggregator.cc:86-98 MergeOperation *)
Definition QuotaMergeOperation (debug : bool) (o : quota_operation) (a : qopagg) : outcome qopagg :=
  let! sets := ofold (quota_merge_set debug) (qa_sets a) (qo_metrics o) in
  Ok (QOpAgg (qa_operation a) sets).

(** src/quota_operation_aggregator.cc:80-84, the constructor *)
Definition NewQuotaOperationAggregator (debug : bool) (o : quota_operation) : outcome qopagg :=
  QuotaMergeOperation debug o (QOpAgg o ∅).

(** src/quota_operation_aggregator.cc:100-112 ToOperationProto *)
Definition QuotaToOperationProto (ord : hash_order) (a : qopagg) : quota_operation :=
  let p := qa_operation a in
  QuotaOperation (qo_id p) (qo_method p) (qo_consumer p) (qo_labels p)
    ((fun nv => MetricValueSet nv.1 [nv.2]) <$> ho_list ord (qa_sets a)) (qo_mode p).
