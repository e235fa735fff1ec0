(** Records for the protobuf messages of google.api.servicecontrol.v1 that the client handles.
    Only the fields the code reads or writes are individual fields; all remaining fields of a message
    are represented by one opaque string ([*_rest]) that the code copies but never inspects.
    proto3 maps are [gmap]s: they have no order of their own. *)
From Verif Require Export Base.
From Coq Require Export SpecFloat.
From stdpp Require Export prelude strings gmap sorting.
Open Scope Z_scope.

(** double *)
Definition double := spec_float.

(** A hash table iterates its entries in some unspecified order.  A value of [hash_order] is one choice of
    such an order for every table; theorems quantify over all of them.
    Simplification: the order is a function of the contents (not of the insertion history). *)
Record hash_order := {
  ho_list : forall V : Type, gmap string V -> list (string * V);
  ho_perm : forall (V : Type) (m : gmap string V), ho_list V m ≡ₚ map_to_list m }.
Arguments ho_list _ {_} _.
Arguments ho_perm _ {_} _.

Definition default_order : hash_order :=
  {| ho_list := fun V m => map_to_list m; ho_perm := fun V m => Permutation_refl _ |}.

(** google.protobuf.Timestamp *)
Record timestamp := Ts { ts_seconds : Z; ts_nanos : Z }.
(** Reading an unset submessage yields the default instance. *)
Definition ts_get (t : option timestamp) : timestamp := default (Ts 0 0) t.

(** google.api.servicecontrol.v1.Distribution *)
Inductive bucket_option :=
| BNotSet
| BLinear (num_finite : Z) (width offset : double)
| BExponential (num_finite : Z) (growth scale : double)
| BExplicit (bounds : list double).

Record distribution := Distribution {
  d_count : Z; d_mean : double; d_min : double; d_max : double; d_ssd : double;
  d_buckets : list Z; d_option : bucket_option }.

(** MetricValue.value (a oneof) *)
Inductive mvalue :=
| VNone
| VBool (b : bool)
| VInt64 (z : Z)
| VDouble (d : double)
| VString (s : string)
| VDist (d : distribution).

Record metric_value := MetricValue {
  mv_labels : gmap string string;
  mv_start : option timestamp;
  mv_end : option timestamp;
  mv_value : mvalue }.

Record metric_value_set := MetricValueSet { mvs_name : string; mvs_values : list metric_value }.

(** Operation.importance is an open enum; LOW is 0. *)
Definition LOW : Z := 0.

Record operation := Operation {
  op_id : string; op_name : string; op_consumer : string;
  op_start : option timestamp; op_end : option timestamp;
  op_labels : gmap string string;
  op_mvs : list metric_value_set;
  op_logs : list string;              (* LogEntry messages, opaque *)
  op_importance : Z;
  op_rest : string }.

Record check_request := CheckRequest {
  cr_service : string; cr_operation : option operation; cr_config : string; cr_rest : string }.
(** CheckResponse: errors matter (empty or not), everything else is opaque. *)
Record check_response := CheckResponse { cs_errors : list string; cs_rest : string }.

Record report_request := ReportRequest {
  rr_service : string; rr_operations : list operation; rr_config : string }.

Record quota_operation := QuotaOperation {
  qo_id : string; qo_method : string; qo_consumer : string;
  qo_labels : gmap string string;
  qo_metrics : list metric_value_set;
  qo_mode : Z }.
(** QuotaOperation.QuotaMode values used by the code. *)
Definition QUOTA_NORMAL : Z := 1.
Definition QUOTA_BEST_EFFORT : Z := 2.

Record quota_request := QuotaRequest {
  qr_service : string; qr_operation : option quota_operation; qr_config : string }.
Record quota_response := QuotaResponse { qs_errors : list string; qs_rest : string }.

Definition empty_operation : operation :=
  Operation "" "" "" None None ∅ [] [] LOW "".
Definition empty_quota_operation : quota_operation := QuotaOperation "" "" "" ∅ [] 0.
Definition op_get (o : option operation) : operation := default empty_operation o.
Definition qop_get (o : option quota_operation) : quota_operation := default empty_quota_operation o.

#[global] Instance spec_float_eq_dec : EqDecision spec_float.
Proof. solve_decision. Defined.
#[global] Instance timestamp_eq_dec : EqDecision timestamp.
Proof. solve_decision. Defined.
#[global] Instance bucket_option_eq_dec : EqDecision bucket_option.
Proof. solve_decision. Defined.
#[global] Instance distribution_eq_dec : EqDecision distribution.
Proof. solve_decision. Defined.
#[global] Instance mvalue_eq_dec : EqDecision mvalue.
Proof. solve_decision. Defined.
#[global] Instance metric_value_eq_dec : EqDecision metric_value.
Proof. solve_decision. Defined.
#[global] Instance metric_value_set_eq_dec : EqDecision metric_value_set.
Proof. solve_decision. Defined.
#[global] Instance operation_eq_dec : EqDecision operation.
Proof. solve_decision. Defined.
