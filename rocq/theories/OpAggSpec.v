(** Specification vocabulary for operation aggregation. *)
From Verif Require Import Proto Signature Distribution DistributionSpec OpAgg.

(** What an aggregator emits after being created from [first] and merging [rest] in order. *)
Definition aggregate (ord : hash_order) (md5 : string -> string) (kinds : option (gmap string metric_kind))
    (first : operation) (rest : list operation) : outcome operation :=
  let! a := NewOperationAggregator ord md5 kinds first in
  let! a := ofold (fun a o => MergeOperation ord md5 kinds o a) a rest in
  Ok (ToOperationProto ord a).

(** The values of metric [name] with label set [labels] in one operation and in a list of operations, in order. *)
Definition values_of (name : string) (labels : gmap string string) (o : operation) : list metric_value :=
  filter (fun v => mv_labels v = labels) (filter (fun s => mvs_name s = name) (op_mvs o) ≫= mvs_values).
Definition all_values (name : string) (labels : gmap string string) (ops : list operation) : list metric_value :=
  ops ≫= values_of name labels.

(** The metric names an operation mentions. *)
Definition names_of (o : operation) : list string := mvs_name <$> op_mvs o.

(** Metrics without a registered kind are DELTA. *)
Definition is_delta (kinds : option (gmap string metric_kind)) (name : string) : Prop :=
  match kinds with None => True | Some m => m !! name = None \/ m !! name = Some Delta end.

(** No two metric values of these operations with different labels have the same signature: by C09, true unless
    a label contains a NUL byte or the digest collides. *)
Definition labels_separated (ord : hash_order) (md5 : string -> string) (ops : list operation) : Prop :=
  forall o1 o2 s1 s2 v1 v2, o1 ∈ ops -> o2 ∈ ops -> s1 ∈ op_mvs o1 -> s2 ∈ op_mvs o2 -> v1 ∈ mvs_values s1 -> v2 ∈ mvs_values s2 ->
  GenerateReportMetricValueSignature ord md5 v1 = GenerateReportMetricValueSignature ord md5 v2 ->
  mv_labels v1 = mv_labels v2.

Definition int_of (v : metric_value) : option Z := match mv_value v with VInt64 z => Some z | _ => None end.
(** all the values are int64, and these are the numbers *)
Definition ints_are (vs : list metric_value) (zs : list Z) : Prop := int_of <$> vs = Some <$> zs.

(** Lexicographic order of timestamps. *)
Definition ts_lt (a b : timestamp) : Prop :=
  ts_seconds a < ts_seconds b \/ (ts_seconds a = ts_seconds b /\ ts_nanos a < ts_nanos b).
(** [r] is the earliest (latest) of the present ones among [l]; absent when all are. *)
Definition earliest (l : list (option timestamp)) (r : option timestamp) : Prop :=
  match r with
  | None => forall x, x ∈ l -> x = None
  | Some t => Some t ∈ l /\ forall t', Some t' ∈ l -> ~ ts_lt t' t
  end.
Definition latest (l : list (option timestamp)) (r : option timestamp) : Prop :=
  match r with
  | None => forall x, x ∈ l -> x = None
  | Some t => Some t ∈ l /\ forall t', Some t' ∈ l -> ~ ts_lt t t'
  end.
(** End time of a value; an absent one reads as the epoch. *)
Definition end_of (v : metric_value) : timestamp := default (Ts 0 0) (mv_end v).

(** Every prefix of the numbers has an int64 sum. *)
Definition prefix_sums_fit (zs : list Z) : Prop :=
  forall k, int64_min <= sum_Z (take k zs) <= int64_max.

(** ** quota *)
Definition quota_aggregate (debug : bool) (ord : hash_order) (first : quota_operation) (rest : list quota_operation)
  : outcome quota_operation :=
  let! a := NewQuotaOperationAggregator debug first in
  let! a := ofold (fun a o => QuotaMergeOperation debug o a) a rest in
  Ok (QuotaToOperationProto ord a).

(** The amounts an operation asks of metric [name]. *)
Definition amounts_of (name : string) (o : quota_operation) : list metric_value :=
  filter (fun s => mvs_name s = name) (qo_metrics o) ≫= mvs_values.
(** Every metric set holds exactly one int64 value. *)
Definition simple_quota (o : quota_operation) : Prop :=
  forall s, s ∈ qo_metrics o -> exists v z, mvs_values s = [v] /\ mv_value v = VInt64 z.

(** Which alternative of the value oneof is set. *)
Definition value_type (v : metric_value) : nat :=
  match mv_value v with VNone => 0 | VBool _ => 1 | VInt64 _ => 2 | VDouble _ => 3 | VString _ => 4 | VDist _ => 5 end.
Definition one_type (vs : list metric_value) : Prop := forall v w, v ∈ vs -> w ∈ vs -> value_type v = value_type w.
