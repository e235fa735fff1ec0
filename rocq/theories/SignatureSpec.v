(** Specification vocabulary for signatures. *)
From Verif Require Import Proto.

(** The string contains no NUL byte. *)
Fixpoint nul_free (s : string) : Prop :=
  match s with
  | ""%string => True
  | String.String c s' => Ascii.nat_of_ascii c <> 0%nat /\ nul_free s'
  end.

Definition labels_nul_free (m : gmap string string) : Prop :=
  forall k v, m !! k = Some v -> nul_free k /\ nul_free v.

(** Two different byte strings with the same digest. *)
Definition collision (md5 : string -> string) (x y : string) : Prop := x <> y /\ md5 x = md5 y.

Definition metric_names (sets : list metric_value_set) : gset string := list_to_set (mvs_name <$> sets).

Definition op_nul_free (o : operation) : Prop :=
  nul_free (op_name o) /\ nul_free (op_consumer o) /\ labels_nul_free (op_labels o) /\
  Forall (fun s => nul_free (mvs_name s) /\ Forall (fun mv => labels_nul_free (mv_labels mv)) (mvs_values s)) (op_mvs o).

Definition qop_nul_free (o : quota_operation) : Prop :=
  nul_free (qo_method o) /\ nul_free (qo_consumer o) /\ Forall (fun s => nul_free (mvs_name s)) (qo_metrics o).

(** What a check request asks about: operation name, consumer, labels, and for each metric name the label maps
    of its values in order (if a metric name occurs twice, the later set counts). *)
Definition check_question (r : check_request) :
  string * string * gmap string string * gmap string (list (gmap string string)) :=
  let o := op_get (cr_operation r) in
  (op_name o, op_consumer o, op_labels o,
   list_to_map (reverse ((fun s => (mvs_name s, mv_labels <$> mvs_values s)) <$> op_mvs o))).

(** The number of labels of each value of a metric set. *)
Definition label_arity (s : metric_value_set) : list nat := (fun mv => size (mv_labels mv)) <$> mvs_values s.

(** Two requests follow one label schema: the number of operation labels is determined by the operation name
    and the number of labels of each metric value by the metric name. *)
Definition same_label_schema (r1 r2 : check_request) : Prop :=
  let o1 := op_get (cr_operation r1) in let o2 := op_get (cr_operation r2) in
  (op_name o1 = op_name o2 -> size (op_labels o1) = size (op_labels o2)) /\
  (forall s1 s2, s1 ∈ op_mvs o1 -> s2 ∈ op_mvs o2 -> mvs_name s1 = mvs_name s2 -> label_arity s1 = label_arity s2).
