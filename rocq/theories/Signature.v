(** Model of src/signature.cc.  An MD5 object is the string of bytes fed to it so far (utils/md5.h:32-56,
    utils/md5.cc: Update appends, Digest hashes everything seen); the digest function itself is the
    arbitrary argument [md5] of each Generate* function. *)
From Verif Require Import Proto.

(** src/signature.cc:32-33 kDelimiter: one NUL byte. *)
Definition NUL : string := String.String (Ascii.ascii_of_nat 0) "".

(** ** std::map<string, V> and std::set<string>: sorted association lists.
    std::string's operator< compares bytes as unsigned chars, as [String.compare] does. *)
Fixpoint smap_insert {V} (k : string) (v : V) (l : list (string * V)) : list (string * V) :=
  match l with
  | [] => [(k, v)]
  | (k', v') :: l' =>
    match String.compare k k' with
    | Lt => (k, v) :: l
    | Eq => l                                   (* insert() keeps the existing entry *)
    | Gt => (k', v') :: smap_insert k v l'
    end
  end.
Fixpoint smap_assign {V} (k : string) (v : V) (l : list (string * V)) : list (string * V) :=
  match l with
  | [] => [(k, v)]
  | (k', v') :: l' =>
    match String.compare k k' with
    | Lt => (k, v) :: l
    | Eq => (k, v) :: l'                        (* m[k] = v overwrites *)
    | Gt => (k', v') :: smap_assign k v l'
    end
  end.
Fixpoint sset_insert (k : string) (l : list string) : list string :=
  match l with
  | [] => [k]
  | k' :: l' =>
    match String.compare k k' with
    | Lt => k :: l
    | Eq => l
    | Gt => k' :: sset_insert k l'
    end
  end.
(** std::map(begin, end) *)
Definition smap_range {V} (l : list (string * V)) : list (string * V) :=
  foldl (fun m kv => smap_insert kv.1 kv.2 m) [] l.

Section sig.
Variable ord : hash_order.

(** src/signature.cc:36-48 UpdateHashLabels *)
Definition UpdateHashLabels (labels : gmap string string) (hasher : string) : string :=
  foldl (fun h kv => h +:+ NUL +:+ kv.1 +:+ NUL +:+ kv.2) hasher (smap_range (ho_list ord labels)).

(** src/signature.cc:51-53 UpdateHashMetricValue *)
Definition UpdateHashMetricValue (mv : metric_value) (hasher : string) : string :=
  UpdateHashLabels (mv_labels mv) hasher.

(** src/signature.cc:56-65, bytes hashed by GenerateReportOperationSignature *)
Definition report_operation_bytes (o : operation) : string :=
  UpdateHashLabels (op_labels o) (op_consumer o +:+ NUL +:+ op_name o).

(** src/signature.cc:67-72, bytes hashed by GenerateReportMetricValueSignature *)
Definition metric_value_bytes (mv : metric_value) : string := UpdateHashMetricValue mv "".

(** src/signature.cc:86-94: the map from metric name to metric values; a later set of the same name wins *)
Definition check_metric_map (sets : list metric_value_set) : list (string * list metric_value) :=
  foldl (fun m s => smap_assign (mvs_name s) (mvs_values s) m) [] sets.

(** src/signature.cc:74-107, bytes hashed by GenerateCheckRequestSignature *)
Definition check_request_bytes (r : check_request) : string :=
  let o := op_get (cr_operation r) in
  let h := op_name o +:+ NUL +:+ op_consumer o +:+ NUL in
  let h := UpdateHashLabels (op_labels o) h in
  let h := foldl (fun h nv => foldl (fun h mv => UpdateHashMetricValue mv h) (h +:+ NUL +:+ nv.1) nv.2)
                 h (check_metric_map (op_mvs o)) in
  h +:+ NUL.

(** src/signature.cc:109-129, bytes hashed by GenerateAllocateQuotaRequestSignature *)
Definition quota_request_bytes (r : quota_request) : string :=
  let o := qop_get (qr_operation r) in
  let h := qo_method o +:+ NUL +:+ qo_consumer o in
  let names := foldl (fun m s => sset_insert (mvs_name s) m) [] (qo_metrics o) in
  foldl (fun h n => h +:+ NUL +:+ n) h names.

Variable md5 : string -> string.
Definition GenerateReportOperationSignature (o : operation) := md5 (report_operation_bytes o).
Definition GenerateReportMetricValueSignature (mv : metric_value) := md5 (metric_value_bytes mv).
Definition GenerateCheckRequestSignature (r : check_request) := md5 (check_request_bytes r).
Definition GenerateAllocateQuotaRequestSignature (r : quota_request) := md5 (quota_request_bytes r).
End sig.
