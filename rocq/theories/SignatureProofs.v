From Verif Require Import Proto Signature SignatureSpec.

(** ** Byte-wise string order *)
Lemma acmp_trans a b c : Ascii.compare a b = Lt -> Ascii.compare b c = Lt -> Ascii.compare a c = Lt.
Proof. unfold Ascii.compare. rewrite !N.compare_lt_iff. lia. Qed.
Lemma acmp_refl a : Ascii.compare a a = Eq.
Proof. unfold Ascii.compare. apply N.compare_refl. Qed.
Lemma scmp_refl a : String.compare a a = Eq.
Proof. induction a as [|x a IH]; cbn; [reflexivity|]. rewrite acmp_refl. assumption. Qed.
Lemma scmp_eq a b : String.compare a b = Eq <-> a = b.
Proof. split; [apply String.compare_eq_iff|]. intros ->. apply scmp_refl. Qed.
Lemma scmp_trans a b c : String.compare a b = Lt -> String.compare b c = Lt -> String.compare a c = Lt.
Proof.
  revert b c. induction a as [|x a IH]; intros [|y b] [|z c]; cbn; try congruence.
  destruct (Ascii.compare x y) eqn:E1; try congruence;
  destruct (Ascii.compare y z) eqn:E2; try congruence; intros H1 H2.
  - apply Ascii.compare_eq_iff in E1, E2. subst. rewrite acmp_refl. eauto.
  - apply Ascii.compare_eq_iff in E1. subst. rewrite E2. reflexivity.
  - apply Ascii.compare_eq_iff in E2. subst. rewrite E1. reflexivity.
  - rewrite (acmp_trans _ _ _ E1 E2). reflexivity.
Qed.
Lemma scmp_gt a b : String.compare a b = Gt <-> String.compare b a = Lt.
Proof. rewrite (String.compare_antisym a b). destruct (String.compare b a); cbn; split; congruence. Qed.

(** ** Sorted association lists *)
Definition klt {V} (x y : string * V) : Prop := String.compare x.1 y.1 = Lt.
#[local] Instance klt_trans {V} : Transitive (@klt V).
Proof. intros x y z. apply scmp_trans. Qed.

Lemma smap_insert_perm {V} k (v : V) l : k ∉ l.*1 -> smap_insert k v l ≡ₚ (k, v) :: l.
Proof.
  induction l as [|[k' v'] l IH]; cbn; [reflexivity|]. rewrite not_elem_of_cons. intros [Hk Hl].
  destruct (String.compare k k') eqn:E.
  - apply scmp_eq in E. congruence.
  - reflexivity.
  - rewrite IH by assumption. apply Permutation_swap.
Qed.
Lemma smap_insert_sorted {V} k (v : V) l : StronglySorted klt l -> StronglySorted klt (smap_insert k v l).
Proof.
  induction l as [|[k' v'] l IH]; cbn; intros Hs; [repeat constructor|].
  apply StronglySorted_inv in Hs as [Hs Hf].
  destruct (String.compare k k') eqn:E.
  - constructor; assumption.
  - constructor; [constructor; assumption|]. constructor; [assumption|].
    eapply Forall_impl; [exact Hf|]. cbn; intros x Hx. unfold klt in *. cbn in *. eapply scmp_trans; eassumption.
  - constructor; [auto|]. apply scmp_gt in E. clear IH Hs.
    induction l as [|[k2 v2] l IH]; cbn; [repeat constructor; assumption|].
    inversion Hf as [|? ? Hf1 Hf2]; subst. destruct (String.compare k k2); repeat constructor; auto.
Qed.

Lemma smap_range_gen {V} (l m : list (string * V)) :
  NoDup (m.*1 ++ l.*1) -> StronglySorted klt m ->
  foldl (fun m kv => smap_insert kv.1 kv.2 m) m l ≡ₚ m ++ l /\
  StronglySorted klt (foldl (fun m kv => smap_insert kv.1 kv.2 m) m l).
Proof.
  revert m. induction l as [|[k v] l IH]; intros m Hn Hs; cbn.
  - rewrite app_nil_r. auto.
  - assert (Hk : k ∉ m.*1).
    { cbn in Hn. apply NoDup_app in Hn as (_ & Hd & _). intros Hin. apply (Hd _ Hin). left. }
    pose proof (smap_insert_perm k v m Hk) as Hp.
    destruct (IH (smap_insert k v m)) as [IHp IHs].
    + rewrite Hp. cbn. cbn in Hn. rewrite <- Permutation_middle in Hn. exact Hn.
    + apply smap_insert_sorted, Hs.
    + split; [|exact IHs]. rewrite IHp, Hp. cbn. apply Permutation_middle.
Qed.
Lemma smap_range_perm {V} (l : list (string * V)) : NoDup l.*1 -> smap_range l ≡ₚ l.
Proof. intros H. apply (smap_range_gen l []); [exact H|constructor]. Qed.
Lemma smap_range_sorted {V} (l : list (string * V)) : NoDup l.*1 -> StronglySorted klt (smap_range l).
Proof. intros H. apply (smap_range_gen l []); [exact H|constructor]. Qed.

Lemma klt_unique {V} (l1 l2 : list (string * V)) :
  StronglySorted klt l1 -> StronglySorted klt l2 -> l1 ≡ₚ l2 -> l1 = l2.
Proof.
  intros H1 H2 Hp. assert (AntiSymm (=) (@klt V)) as HA; [|apply (StronglySorted_unique klt); assumption].
  intros x1 x2 Ha Hb. unfold klt in *. pose proof (scmp_trans _ _ _ Ha Hb) as H. rewrite scmp_refl in H. discriminate.
Qed.

(** The labels in the order in which they are hashed. *)
Definition sorted_labels {V} (m : gmap string V) : list (string * V) := smap_range (map_to_list m).

Lemma ho_nodup {V} ord (m : gmap string V) : NoDup (ho_list ord m).*1.
Proof. rewrite (ho_perm ord m). apply NoDup_fst_map_to_list. Qed.
Lemma sorted_labels_ord {V} ord (m : gmap string V) : smap_range (ho_list ord m) = sorted_labels m.
Proof.
  apply klt_unique; try apply smap_range_sorted; try apply ho_nodup; [apply NoDup_fst_map_to_list|].
  unfold sorted_labels. rewrite !smap_range_perm; [apply ho_perm|apply NoDup_fst_map_to_list|apply ho_nodup].
Qed.
Lemma sorted_labels_perm {V} (m : gmap string V) : sorted_labels m ≡ₚ map_to_list m.
Proof. apply smap_range_perm, NoDup_fst_map_to_list. Qed.
Lemma sorted_labels_inj {V} (m1 m2 : gmap string V) : sorted_labels m1 = sorted_labels m2 -> m1 = m2.
Proof.
  intros H. apply map_to_list_inj. rewrite <- (sorted_labels_perm m1), <- (sorted_labels_perm m2), H. reflexivity.
Qed.

(** ** Byte strings *)
Lemma sapp_assoc a b c : (a +:+ b) +:+ c = a +:+ (b +:+ c).
Proof.
  induction a as [|x a IH]; [reflexivity|].
  change (String.String x ((a +:+ b) +:+ c) = String.String x (a +:+ (b +:+ c))). f_equal. exact IH.
Qed.
Lemma sapp_nil_r a : a +:+ "" = a.
Proof. induction a as [|x a IH]; [reflexivity|]. change (String.String x (a +:+ "") = String.String x a). f_equal. exact IH. Qed.

Fixpoint nulcat (l : list string) : string :=
  match l with [] => "" | s :: l => NUL +:+ s +:+ nulcat l end.
Lemma nulcat_app l1 l2 : nulcat (l1 ++ l2) = nulcat l1 +:+ nulcat l2.
Proof. induction l1 as [|s l IH]; [reflexivity|]. cbn [nulcat app]. rewrite IH, !sapp_assoc. reflexivity. Qed.

Definition flat (l : list (string * string)) : list string := l ≫= fun kv => [kv.1; kv.2].

Lemma fold_labels l h :
  foldl (fun h kv => h +:+ NUL +:+ kv.1 +:+ NUL +:+ kv.2) h l = h +:+ nulcat (flat l).
Proof.
  revert h. induction l as [|[k v] l IH]; intros h; cbn [foldl].
  - cbn. rewrite sapp_nil_r. reflexivity.
  - rewrite IH. unfold flat. cbn [mbind list_bind app fst snd nulcat]. rewrite !sapp_assoc. reflexivity.
Qed.
Lemma UpdateHashLabels_eq ord m h : UpdateHashLabels ord m h = h +:+ nulcat (flat (sorted_labels m)).
Proof. unfold UpdateHashLabels. rewrite fold_labels, sorted_labels_ord. reflexivity. Qed.

Lemma report_bytes_eq ord o :
  report_operation_bytes ord o = op_consumer o +:+ nulcat (op_name o :: flat (sorted_labels (op_labels o))).
Proof. unfold report_operation_bytes. rewrite UpdateHashLabels_eq. cbn [nulcat]. rewrite !sapp_assoc. reflexivity. Qed.
Lemma metric_bytes_eq ord mv : metric_value_bytes ord mv = nulcat (flat (sorted_labels (mv_labels mv))).
Proof. unfold metric_value_bytes, UpdateHashMetricValue. rewrite UpdateHashLabels_eq. reflexivity. Qed.

Definition values_flat (vs : list metric_value) : list string := vs ≫= fun mv => flat (sorted_labels (mv_labels mv)).
Definition metrics_flat (l : list (string * list metric_value)) : list string :=
  l ≫= fun nv => nv.1 :: values_flat nv.2.

Lemma fold_values ord vs h :
  foldl (fun h mv => UpdateHashMetricValue ord mv h) h vs = h +:+ nulcat (values_flat vs).
Proof.
  revert h. induction vs as [|mv vs IH]; intros h; cbn [foldl].
  - cbn. rewrite sapp_nil_r. reflexivity.
  - rewrite IH. unfold UpdateHashMetricValue. rewrite UpdateHashLabels_eq. unfold values_flat. cbn [mbind list_bind].
    rewrite nulcat_app, !sapp_assoc. reflexivity.
Qed.
Lemma fold_metrics ord l h :
  foldl (fun h nv => foldl (fun h mv => UpdateHashMetricValue ord mv h) (h +:+ NUL +:+ nv.1) nv.2) h l
  = h +:+ nulcat (metrics_flat l).
Proof.
  revert h. induction l as [|[n vs] l IH]; intros h; cbn [foldl fst snd].
  - cbn. rewrite sapp_nil_r. reflexivity.
  - rewrite IH, fold_values. unfold metrics_flat. cbn [mbind list_bind fst snd].
    change ((n :: values_flat vs) ++ ?y) with (n :: (values_flat vs ++ y)). cbn [nulcat].
    rewrite nulcat_app, !sapp_assoc. reflexivity.
Qed.

Lemma check_bytes_eq ord r : let o := op_get (cr_operation r) in
  check_request_bytes ord r =
  op_name o +:+ nulcat (op_consumer o :: "" :: flat (sorted_labels (op_labels o))
                        ++ metrics_flat (check_metric_map (op_mvs o)) ++ [""]).
Proof.
  cbn zeta. unfold check_request_bytes. cbn zeta. rewrite fold_metrics, UpdateHashLabels_eq.
  cbn [nulcat]. rewrite !nulcat_app, !sapp_assoc. cbn [nulcat].
  reflexivity.
Qed.

Lemma fold_names l h : foldl (fun h n => h +:+ NUL +:+ n) h l = h +:+ nulcat l.
Proof.
  revert h. induction l as [|n l IH]; intros h; cbn [foldl].
  - cbn. rewrite sapp_nil_r. reflexivity.
  - rewrite IH. cbn [nulcat]. rewrite !sapp_assoc. reflexivity.
Qed.
Definition sorted_names (sets : list metric_value_set) : list string :=
  foldl (fun m s => sset_insert (mvs_name s) m) [] sets.
Lemma quota_bytes_eq r : let o := qop_get (qr_operation r) in
  quota_request_bytes r = qo_method o +:+ nulcat (qo_consumer o :: sorted_names (qo_metrics o)).
Proof. cbn zeta. unfold quota_request_bytes. cbn zeta. rewrite fold_names. cbn [nulcat]. rewrite !sapp_assoc. reflexivity. Qed.

(** ** Parsing NUL-separated strings *)
Lemma NUL_app s : NUL +:+ s = String.String (Ascii.ascii_of_nat 0) s.
Proof. reflexivity. Qed.

Definition tail_ok (x : string) : Prop := x = ""%string \/ exists y, x = NUL +:+ y.
Lemma nulcat_tail l : tail_ok (nulcat l).
Proof. destruct l as [|s l]; [left; reflexivity|]. right. eexists. reflexivity. Qed.

Lemma nul_split a b x y : nul_free a -> nul_free b -> tail_ok x -> tail_ok y ->
  a +:+ x = b +:+ y -> a = b /\ x = y.
Proof.
  revert b. induction a as [|c a IH]; intros [|d b] Ha Hb Hx Hy E.
  - auto.
  - exfalso. change (x = String.String d (b +:+ y)) in E. destruct Hx as [->|[z ->]]; [discriminate|].
    rewrite NUL_app in E. injection E as <- _. destruct Hb as [Hb _]. apply Hb. reflexivity.
  - exfalso. change (String.String c (a +:+ x) = y) in E. destruct Hy as [->|[z ->]]; [discriminate|].
    rewrite NUL_app in E. injection E as -> _. destruct Ha as [Ha _]. apply Ha. reflexivity.
  - change (String.String c (a +:+ x) = String.String d (b +:+ y)) in E. injection E as -> E.
    destruct Ha as [_ Ha], Hb as [_ Hb]. destruct (IH b Ha Hb Hx Hy E) as [-> ->]. auto.
Qed.

Lemma nulcat_inj l1 l2 : Forall nul_free l1 -> Forall nul_free l2 -> nulcat l1 = nulcat l2 -> l1 = l2.
Proof.
  revert l2. induction l1 as [|a l1 IH]; intros [|b l2] H1 H2 E; cbn [nulcat] in E.
  - reflexivity.
  - rewrite NUL_app in E. discriminate.
  - rewrite NUL_app in E. discriminate.
  - apply string_app_inj in E. inversion H1; subst. inversion H2; subst.
    apply nul_split in E; try assumption; try apply nulcat_tail. destruct E as [-> E]. f_equal. auto.
Qed.
Lemma bytes_inj a b l1 l2 : nul_free a -> nul_free b -> Forall nul_free l1 -> Forall nul_free l2 ->
  a +:+ nulcat l1 = b +:+ nulcat l2 -> a = b /\ l1 = l2.
Proof.
  intros Ha Hb H1 H2 E. apply nul_split in E; try assumption; try apply nulcat_tail. destruct E as [-> E].
  split; [reflexivity|]. apply nulcat_inj; assumption.
Qed.

Lemma flat_inj l1 l2 : flat l1 = flat l2 -> l1 = l2.
Proof.
  revert l2. induction l1 as [|[k v] l1 IH]; intros [|[k' v'] l2]; unfold flat; cbn; try congruence.
  intros E. injection E as -> -> E. f_equal. apply IH. exact E.
Qed.
Lemma flat_length l : length (flat l) = (2 * length l)%nat.
Proof. induction l as [|[k v] l IH]; [reflexivity|]. unfold flat in *. cbn. rewrite IH. lia. Qed.
Lemma flat_free m : labels_nul_free m -> Forall nul_free (flat (sorted_labels m)).
Proof.
  intros H. apply Forall_forall. intros s Hs. unfold flat in Hs. apply elem_of_list_bind in Hs as ([k v] & Hs & Hin).
  rewrite sorted_labels_perm in Hin. apply elem_of_map_to_list in Hin. apply H in Hin as [Hk Hv]. cbn in Hs.
  rewrite !elem_of_cons in Hs. destruct Hs as [->|[->|Hs]]; [assumption|assumption|]. apply elem_of_nil in Hs. contradiction.
Qed.

(** ** C08-C10 *)
Lemma report_bytes_inj ord1 ord2 o1 o2 : op_nul_free o1 -> op_nul_free o2 ->
  report_operation_bytes ord1 o1 = report_operation_bytes ord2 o2 ->
  op_consumer o1 = op_consumer o2 /\ op_name o1 = op_name o2 /\ op_labels o1 = op_labels o2.
Proof.
  intros (N1 & C1 & L1 & _) (N2 & C2 & L2 & _) E. rewrite !report_bytes_eq in E.
  apply bytes_inj in E; try assumption; try (constructor; [assumption|apply flat_free; assumption]).
  destruct E as [Ec E]. injection E as En El. apply flat_inj, sorted_labels_inj in El. auto.
Qed.
Lemma metric_bytes_inj ord1 ord2 m1 m2 : labels_nul_free (mv_labels m1) -> labels_nul_free (mv_labels m2) ->
  metric_value_bytes ord1 m1 = metric_value_bytes ord2 m2 -> mv_labels m1 = mv_labels m2.
Proof.
  intros H1 H2 E. rewrite !metric_bytes_eq in E. apply nulcat_inj in E; try (apply flat_free; assumption).
  apply flat_inj, sorted_labels_inj in E. assumption.
Qed.

(** Sorted sets of names *)
Definition nlt (x y : string) : Prop := String.compare x y = Lt.
Lemma sset_insert_elem k l x : x ∈ sset_insert k l <-> x = k \/ x ∈ l.
Proof.
  induction l as [|k' l IH]; cbn; [rewrite elem_of_list_singleton, elem_of_nil; tauto|].
  destruct (String.compare k k') eqn:E; rewrite ?elem_of_cons, ?IH, ?elem_of_cons; try tauto.
  apply scmp_eq in E. subst. tauto.
Qed.
Lemma sset_insert_sorted k l : StronglySorted nlt l -> StronglySorted nlt (sset_insert k l).
Proof.
  induction l as [|k' l IH]; cbn; intros Hs; [repeat constructor|].
  apply StronglySorted_inv in Hs as [Hs Hf].
  destruct (String.compare k k') eqn:E.
  - constructor; assumption.
  - constructor; [constructor; assumption|]. constructor; [assumption|].
    eapply Forall_impl; [exact Hf|]. cbn; intros x Hx. unfold nlt in *. eapply scmp_trans; eassumption.
  - constructor; [auto|]. apply scmp_gt in E. apply Forall_forall. intros x Hx.
    apply sset_insert_elem in Hx as [->|Hx]; [assumption|]. rewrite Forall_forall in Hf. auto.
Qed.
Lemma sorted_names_gen sets m :
  (forall x, x ∈ foldl (fun m s => sset_insert (mvs_name s) m) m sets <-> x ∈ m \/ x ∈ mvs_name <$> sets) /\
  (StronglySorted nlt m -> StronglySorted nlt (foldl (fun m s => sset_insert (mvs_name s) m) m sets)).
Proof.
  revert m. induction sets as [|s sets IH]; intros m; cbn.
  - split; [|auto]. intros x. rewrite elem_of_nil. tauto.
  - destruct (IH (sset_insert (mvs_name s) m)) as [H1 H2]. split.
    + intros x. rewrite H1, sset_insert_elem, elem_of_cons. tauto.
    + intros Hs. apply H2, sset_insert_sorted, Hs.
Qed.
Lemma sorted_names_elem sets x : x ∈ sorted_names sets <-> x ∈ metric_names sets.
Proof.
  unfold metric_names. rewrite elem_of_list_to_set. unfold sorted_names.
  destruct (sorted_names_gen sets []) as [H _]. rewrite H, elem_of_nil. tauto.
Qed.
Lemma sorted_names_sorted sets : StronglySorted nlt (sorted_names sets).
Proof. apply sorted_names_gen. constructor. Qed.
Lemma nlt_nodup l : StronglySorted nlt l -> NoDup l.
Proof.
  induction 1 as [|x l _ IH Hf]; constructor; [|assumption].
  intros Hin. rewrite Forall_forall in Hf. apply Hf in Hin. unfold nlt in Hin. rewrite scmp_refl in Hin. discriminate.
Qed.
Lemma sorted_names_eq s1 s2 : metric_names s1 = metric_names s2 -> sorted_names s1 = sorted_names s2.
Proof.
  intros E. assert (AntiSymm (=) nlt) as HA.
  - intros x1 x2 Ha Hb. unfold nlt in *. pose proof (scmp_trans _ _ _ Ha Hb) as H. rewrite scmp_refl in H. discriminate.
  - apply (StronglySorted_unique nlt); try apply sorted_names_sorted. apply NoDup_Permutation; try apply nlt_nodup, sorted_names_sorted.
    intros x. rewrite !sorted_names_elem, E. reflexivity.
Qed.
Lemma names_free sets : Forall (fun s => nul_free (mvs_name s)) sets -> Forall nul_free (sorted_names sets).
Proof.
  intros H. apply Forall_forall. intros x Hx. apply sorted_names_elem in Hx. unfold metric_names in Hx.
  apply elem_of_list_to_set, elem_of_list_fmap in Hx as (s & -> & Hs). rewrite Forall_forall in H. auto.
Qed.

Lemma quota_bytes_inj r1 r2 :
  let o1 := qop_get (qr_operation r1) in let o2 := qop_get (qr_operation r2) in
  qop_nul_free o1 -> qop_nul_free o2 -> quota_request_bytes r1 = quota_request_bytes r2 ->
  qo_method o1 = qo_method o2 /\ qo_consumer o1 = qo_consumer o2 /\
  metric_names (qo_metrics o1) = metric_names (qo_metrics o2).
Proof.
  intros o1 o2 (M1 & C1 & S1) (M2 & C2 & S2) E. rewrite !quota_bytes_eq in E. fold o1 o2 in E.
  apply bytes_inj in E; try assumption; try (constructor; [assumption|apply names_free; assumption]).
  destruct E as [Em E]. injection E as Ec En. repeat split; try assumption.
  apply set_eq. intros x. rewrite <- !sorted_names_elem, En. reflexivity.
Qed.
Lemma quota_bytes_congr r1 r2 :
  let o1 := qop_get (qr_operation r1) in let o2 := qop_get (qr_operation r2) in
  qo_method o1 = qo_method o2 -> qo_consumer o1 = qo_consumer o2 ->
  metric_names (qo_metrics o1) = metric_names (qo_metrics o2) -> quota_request_bytes r1 = quota_request_bytes r2.
Proof.
  intros o1 o2 Hm Hc Hn. rewrite !quota_bytes_eq. fold o1 o2. rewrite Hm, Hc, (sorted_names_eq _ _ Hn). reflexivity.
Qed.

(** ** Check requests *)
Lemma smap_assign_perm {V} k (v : V) l : k ∉ l.*1 -> smap_assign k v l ≡ₚ (k, v) :: l.
Proof.
  induction l as [|[k' v'] l IH]; cbn; [reflexivity|]. rewrite not_elem_of_cons. intros [Hk Hl].
  destruct (String.compare k k') eqn:E.
  - apply scmp_eq in E. congruence.
  - reflexivity.
  - rewrite IH by assumption. apply Permutation_swap.
Qed.
Lemma smap_assign_elem {V} k (v : V) l x : x ∈ smap_assign k v l -> x = (k, v) \/ x ∈ l.
Proof.
  induction l as [|[k' v'] l IH]; cbn; [rewrite elem_of_list_singleton; tauto|].
  destruct (String.compare k k'); rewrite ?elem_of_cons; tauto.
Qed.
Lemma smap_assign_sorted {V} k (v : V) l : StronglySorted klt l -> StronglySorted klt (smap_assign k v l).
Proof.
  induction l as [|[k' v'] l IH]; cbn; intros Hs; [repeat constructor|].
  apply StronglySorted_inv in Hs as [Hs Hf].
  destruct (String.compare k k') eqn:E.
  - apply scmp_eq in E. subst. constructor; [assumption|]. exact Hf.
  - constructor; [constructor; assumption|]. constructor; [assumption|].
    eapply Forall_impl; [exact Hf|]. cbn; intros x Hx. unfold klt in *. cbn in *. eapply scmp_trans; eassumption.
  - constructor; [auto|]. apply scmp_gt in E. apply Forall_forall. intros x Hx.
    apply smap_assign_elem in Hx as [->|Hx]; [exact E|]. rewrite Forall_forall in Hf. auto.
Qed.

(** Lookup in a sorted association list, for relating [check_metric_map] to a finite map. *)
Lemma klt_nodup {V} (l : list (string * V)) : StronglySorted klt l -> NoDup l.*1.
Proof.
  induction 1 as [|[k v] l Hs IH Hf]; cbn; constructor; [|assumption].
  intros Hin. apply elem_of_list_fmap in Hin as ([k' v'] & -> & Hin). rewrite Forall_forall in Hf. apply Hf in Hin.
  unfold klt in Hin. cbn in Hin. rewrite scmp_refl in Hin. discriminate.
Qed.
Lemma smap_assign_to_map {V} k (v : V) l : StronglySorted klt l ->
  (list_to_map (smap_assign k v l) : gmap string V) = <[k := v]> (list_to_map l).
Proof.
  induction l as [|[k' v'] l IH]; cbn; intros Hs; [reflexivity|].
  apply StronglySorted_inv in Hs as [Hs Hf].
  destruct (String.compare k k') eqn:E; cbn.
  - apply scmp_eq in E. subst. rewrite insert_insert. reflexivity.
  - reflexivity.
  - rewrite IH by assumption. apply insert_commute. intros ->. rewrite scmp_refl in E. discriminate.
Qed.
Lemma check_map_gen sets m : StronglySorted klt m ->
  StronglySorted klt (foldl (fun m s => smap_assign (mvs_name s) (mvs_values s) m) m sets) /\
  (list_to_map (foldl (fun m s => smap_assign (mvs_name s) (mvs_values s) m) m sets) : gmap string _) =
  foldl (fun m s => <[mvs_name s := mvs_values s]> m) (list_to_map m) sets.
Proof.
  revert m. induction sets as [|s sets IH]; intros m Hs; cbn; [auto|].
  destruct (IH _ (smap_assign_sorted (mvs_name s) (mvs_values s) m Hs)) as [H1 H2]. split; [assumption|].
  rewrite H2, smap_assign_to_map by assumption. reflexivity.
Qed.
Definition check_gmap (sets : list metric_value_set) : gmap string (list metric_value) :=
  foldl (fun m s => <[mvs_name s := mvs_values s]> m) ∅ sets.
Lemma check_map_sorted sets : StronglySorted klt (check_metric_map sets).
Proof. apply check_map_gen. constructor. Qed.
Lemma check_map_to_map sets : (list_to_map (check_metric_map sets) : gmap string _) = check_gmap sets.
Proof. apply (check_map_gen sets []). constructor. Qed.
Lemma check_map_perm sets : check_metric_map sets ≡ₚ map_to_list (check_gmap sets).
Proof.
  rewrite <- check_map_to_map. symmetry. apply map_to_list_to_map. apply klt_nodup, check_map_sorted.
Qed.
Lemma check_map_eq s1 s2 : check_gmap s1 = check_gmap s2 -> check_metric_map s1 = check_metric_map s2.
Proof.
  intros E. apply klt_unique; try apply check_map_sorted. rewrite !check_map_perm, E. reflexivity.
Qed.
Lemma check_gmap_nodup sets : NoDup (mvs_name <$> sets) ->
  check_gmap sets = list_to_map ((fun s => (mvs_name s, mvs_values s)) <$> sets).
Proof.
  unfold check_gmap. intros Hn.
  assert (G : forall (m : gmap string (list metric_value)), (forall s, s ∈ sets -> m !! mvs_name s = None) ->
    foldl (fun m s => <[mvs_name s := mvs_values s]> m) m sets =
    list_to_map ((fun s => (mvs_name s, mvs_values s)) <$> sets) ∪ m).
  { induction sets as [|s sets IH]; intros m Hm; cbn; [rewrite (left_id_L ∅ (∪)); reflexivity|].
    inversion Hn as [|? ? Hnin Hn']; subst. rewrite IH; [| |].
    - rewrite <- insert_union_r; [rewrite insert_union_l; reflexivity|].
      apply not_elem_of_list_to_map_1. rewrite <- list_fmap_compose.
      intros Hin. apply Hnin. exact Hin.
    - assumption.
    - intros s' Hs'. rewrite lookup_insert_ne; [apply Hm; right; assumption|].
      intros E. apply Hnin. rewrite E. apply elem_of_list_fmap_1, Hs'. }
  rewrite G; [apply (right_id_L ∅ (∪))|]. intros. apply lookup_empty.
Qed.
Lemma check_gmap_perm s1 s2 : NoDup (mvs_name <$> s1) -> s1 ≡ₚ s2 -> check_gmap s1 = check_gmap s2.
Proof.
  intros Hn Hp. assert (Hn2 : NoDup (mvs_name <$> s2)) by (rewrite <- Hp; assumption).
  rewrite !check_gmap_nodup by assumption. apply list_to_map_proper.
  - rewrite <- list_fmap_compose. exact Hn.
  - rewrite Hp. reflexivity.
Qed.

(** The metric part of a check request, reduced to labels. *)
Definition lab (nv : string * list metric_value) : string * list (gmap string string) := (nv.1, mv_labels <$> nv.2).
Definition labs_flat (l : list (string * list (gmap string string))) : list string :=
  l ≫= fun nv => nv.1 :: (nv.2 ≫= fun m => flat (sorted_labels m)).
Lemma values_flat_lab vs : values_flat vs = ((mv_labels <$> vs) ≫= fun m => flat (sorted_labels m)).
Proof. induction vs as [|v vs IH]; [reflexivity|]. unfold values_flat in *. cbn. rewrite IH. reflexivity. Qed.
Lemma metrics_flat_lab l : metrics_flat l = labs_flat (lab <$> l).
Proof.
  induction l as [|[n vs] l IH]; [reflexivity|]. unfold metrics_flat, labs_flat in *. cbn. rewrite IH, values_flat_lab. reflexivity.
Qed.
Lemma lab_sorted sets : StronglySorted klt (lab <$> check_metric_map sets).
Proof.
  generalize (check_map_sorted sets). generalize (check_metric_map sets) as l.
  induction 1 as [|x l Hs IH Hf]; cbn; constructor; [assumption|]. apply Forall_fmap.
  eapply Forall_impl; [exact Hf|]. intros y Hy. exact Hy.
Qed.
Lemma check_gmap_rev sets :
  check_gmap sets = list_to_map (reverse ((fun s => (mvs_name s, mvs_values s)) <$> sets)).
Proof.
  unfold check_gmap. assert (G : forall m : gmap string (list metric_value),
    foldl (fun m s => <[mvs_name s := mvs_values s]> m) m sets =
    list_to_map (reverse ((fun s => (mvs_name s, mvs_values s)) <$> sets)) ∪ m).
  { induction sets as [|s sets IH]; intros m; cbn [foldl fmap list_fmap].
    - symmetry. apply (left_id_L ∅ (∪)).
    - rewrite IH, reverse_cons, list_to_map_app. cbn. rewrite <- (assoc_L (∪)). f_equal.
      rewrite insert_empty, insert_union_singleton_l. reflexivity. }
  rewrite G. apply (right_id_L ∅ (∪)).
Qed.
Lemma lab_map sets :
  (list_to_map (lab <$> check_metric_map sets) : gmap string _) =
  list_to_map (reverse ((fun s => (mvs_name s, mv_labels <$> mvs_values s)) <$> sets)).
Proof.
  transitivity ((fun vs : list metric_value => mv_labels <$> vs) <$> check_gmap sets).
  - rewrite <- check_map_to_map. rewrite <- list_to_map_fmap. f_equal.
  - rewrite check_gmap_rev, <- list_to_map_fmap. f_equal. rewrite fmap_reverse, <- list_fmap_compose. reflexivity.
Qed.
Lemma lab_eq s1 s2 :
  (list_to_map (reverse ((fun s => (mvs_name s, mv_labels <$> mvs_values s)) <$> s1)) : gmap string (list (gmap string string))) =
  list_to_map (reverse ((fun s => (mvs_name s, mv_labels <$> mvs_values s)) <$> s2)) <->
  lab <$> check_metric_map s1 = lab <$> check_metric_map s2.
Proof.
  rewrite <- !lab_map. split; [|congruence]. intros E. apply klt_unique; try apply lab_sorted.
  apply list_to_map_inj; try apply klt_nodup, lab_sorted. assumption.
Qed.

Lemma check_bytes_congr ord1 ord2 r1 r2 :
  check_question r1 = check_question r2 -> check_request_bytes ord1 r1 = check_request_bytes ord2 r2.
Proof.
  unfold check_question. intros E.
  assert (E4 := f_equal snd E). assert (E3 := f_equal (fun x => x.1.2) E).
  assert (E2 := f_equal (fun x => x.1.1.2) E). assert (E1 := f_equal (fun x => x.1.1.1) E). cbn [fst snd] in *.
  apply lab_eq in E4. rewrite !check_bytes_eq, !metrics_flat_lab, E1, E2, E3, E4. reflexivity.
Qed.

Lemma check_map_from sets n vs : (n, vs) ∈ check_metric_map sets -> exists s, s ∈ sets /\ mvs_name s = n /\ mvs_values s = vs.
Proof.
  unfold check_metric_map.
  assert (G : forall m, (n, vs) ∈ foldl (fun m s => smap_assign (mvs_name s) (mvs_values s) m) m sets ->
     (n, vs) ∈ m \/ exists s, s ∈ sets /\ mvs_name s = n /\ mvs_values s = vs).
  { induction sets as [|s sets IH]; intros m H; cbn in H; [auto|].
    apply IH in H as [H|(s' & H & H')].
    - apply smap_assign_elem in H as [H|H]; [|auto]. injection H as -> ->. right. exists s. split; [left|auto].
    - right. exists s'. split; [right; assumption|assumption]. }
  intros H. apply G in H as [H|H]; [apply elem_of_nil in H; contradiction|assumption].
Qed.

Lemma labs_values_inj (v1 v2 : list (gmap string string)) t1 t2 :
  (fun m => size m) <$> v1 = ((fun m => size m) <$> v2 : list nat) ->
  (v1 ≫= fun m => flat (sorted_labels m)) ++ t1 = (v2 ≫= fun m => flat (sorted_labels m)) ++ t2 ->
  v1 = v2 /\ t1 = t2.
Proof.
  revert v2. induction v1 as [|m1 v1 IH]; intros [|m2 v2] Ha E; cbn in Ha; try discriminate.
  - auto.
  - injection Ha as Hs Ha. cbn in E. rewrite <- !(assoc_L (++)) in E.
    apply app_inj_1 in E.
    + destruct E as [E1 E2]. apply flat_inj, sorted_labels_inj in E1. subst.
      destruct (IH v2 Ha E2) as [-> ->]. auto.
    + rewrite !flat_length. f_equal. rewrite !sorted_labels_perm. exact Hs.
Qed.
Lemma labs_inj l1 l2 :
  (forall n v1 v2, (n, v1) ∈ l1 -> (n, v2) ∈ l2 -> (fun m : gmap string string => size m) <$> v1 = ((fun m => size m) <$> v2 : list nat)) ->
  labs_flat l1 = labs_flat l2 -> l1 = l2.
Proof.
  revert l2. induction l1 as [|[n1 v1] l1 IH]; intros [|[n2 v2] l2] Ha E; unfold labs_flat in E; cbn in E; try discriminate.
  - reflexivity.
  - injection E as -> E. apply labs_values_inj in E; [|eapply Ha; left].
    destruct E as [-> E]. f_equal. apply IH; [|exact E]. intros n w1 w2 H1 H2. apply (Ha n); right; assumption.
Qed.

Lemma op_mvs_free o : op_nul_free o -> Forall nul_free (metrics_flat (check_metric_map (op_mvs o))).
Proof.
  intros (_ & _ & _ & H). apply Forall_forall. intros x Hx. unfold metrics_flat in Hx.
  apply elem_of_list_bind in Hx as ([n vs] & Hx & Hin). apply check_map_from in Hin as (s & Hs & <- & <-).
  rewrite Forall_forall in H. destruct (H s Hs) as [H1 H2]. cbn in Hx. apply elem_of_cons in Hx as [->|Hx]; [assumption|].
  unfold values_flat in Hx. apply elem_of_list_bind in Hx as (mv & Hx & Hin).
  rewrite Forall_forall in H2. apply H2, flat_free in Hin. rewrite Forall_forall in Hin. auto.
Qed.

Lemma check_bytes_inj ord1 ord2 r1 r2 :
  op_nul_free (op_get (cr_operation r1)) -> op_nul_free (op_get (cr_operation r2)) -> same_label_schema r1 r2 ->
  check_request_bytes ord1 r1 = check_request_bytes ord2 r2 -> check_question r1 = check_question r2.
Proof.
  intros F1 F2 [S1 S2] E. rewrite !check_bytes_eq in E.
  apply bytes_inj in E; [|apply F1|apply F2| |].
  2,3: constructor; [apply F1 || apply F2|]; constructor; [exact I|]; apply Forall_app; split;
     [apply flat_free; apply F1 || apply F2|]; apply Forall_app; split; [apply op_mvs_free; assumption|];
     repeat constructor.
  destruct E as [En E]. injection E as Ec E. specialize (S1 En).
  apply app_inj_1 in E; [|rewrite !flat_length, !sorted_labels_perm; f_equal; exact S1].
  destruct E as [El E]. apply flat_inj, sorted_labels_inj in El. apply app_inj_2 in E; [|reflexivity].
  destruct E as [E _]. rewrite !metrics_flat_lab in E. apply labs_inj in E.
  - unfold check_question. apply lab_eq in E. rewrite En, Ec, El, E. reflexivity.
  - intros n v1 v2 H1 H2.
    apply elem_of_list_fmap in H1 as ([n1 w1] & H1 & Hin1). apply elem_of_list_fmap in H2 as ([n2 w2] & H2 & Hin2).
    unfold lab in H1, H2. cbn in H1, H2. injection H1 as -> ->. injection H2 as <- ->.
    apply check_map_from in Hin1 as (s1 & Hs1 & Hn1 & Hv1). apply check_map_from in Hin2 as (s2 & Hs2 & Hn2 & Hv2).
    specialize (S2 s1 s2 Hs1 Hs2 ltac:(congruence)). unfold label_arity in S2. rewrite Hv1, Hv2 in S2.
    rewrite <- !list_fmap_compose. exact S2.
Qed.

(** ** Statements used by PropsSignature.v *)
Lemma collision_or md5 x y : md5 x = md5 y -> x = y \/ collision md5 x y.
Proof. intros H. destruct (decide (x = y)); [auto|right; split; assumption]. Qed.

Lemma report_sig_sound md5 ord1 ord2 o1 o2 : op_nul_free o1 -> op_nul_free o2 ->
  GenerateReportOperationSignature ord1 md5 o1 = GenerateReportOperationSignature ord2 md5 o2 ->
  (op_consumer o1 = op_consumer o2 /\ op_name o1 = op_name o2 /\ op_labels o1 = op_labels o2) \/
  collision md5 (report_operation_bytes ord1 o1) (report_operation_bytes ord2 o2).
Proof. intros F1 F2 E. apply collision_or in E as [E|E]; [|auto]. left. eapply report_bytes_inj; eassumption. Qed.
Lemma report_sig_congr md5 ord1 ord2 o1 o2 :
  op_consumer o1 = op_consumer o2 -> op_name o1 = op_name o2 -> op_labels o1 = op_labels o2 ->
  GenerateReportOperationSignature ord1 md5 o1 = GenerateReportOperationSignature ord2 md5 o2.
Proof. intros H1 H2 H3. unfold GenerateReportOperationSignature. rewrite !report_bytes_eq, H1, H2, H3. reflexivity. Qed.
Lemma metric_sig_sound md5 ord1 ord2 m1 m2 : labels_nul_free (mv_labels m1) -> labels_nul_free (mv_labels m2) ->
  GenerateReportMetricValueSignature ord1 md5 m1 = GenerateReportMetricValueSignature ord2 md5 m2 ->
  mv_labels m1 = mv_labels m2 \/ collision md5 (metric_value_bytes ord1 m1) (metric_value_bytes ord2 m2).
Proof. intros F1 F2 E. apply collision_or in E as [E|E]; [|auto]. left. eapply metric_bytes_inj; eassumption. Qed.
Lemma metric_sig_congr md5 ord1 ord2 m1 m2 : mv_labels m1 = mv_labels m2 ->
  GenerateReportMetricValueSignature ord1 md5 m1 = GenerateReportMetricValueSignature ord2 md5 m2.
Proof. intros H. unfold GenerateReportMetricValueSignature. rewrite !metric_bytes_eq, H. reflexivity. Qed.
Lemma quota_sig_sound md5 r1 r2 :
  let o1 := qop_get (qr_operation r1) in let o2 := qop_get (qr_operation r2) in
  qop_nul_free o1 -> qop_nul_free o2 ->
  GenerateAllocateQuotaRequestSignature md5 r1 = GenerateAllocateQuotaRequestSignature md5 r2 ->
  (qo_method o1 = qo_method o2 /\ qo_consumer o1 = qo_consumer o2 /\
   metric_names (qo_metrics o1) = metric_names (qo_metrics o2)) \/
  collision md5 (quota_request_bytes r1) (quota_request_bytes r2).
Proof. intros o1 o2 F1 F2 E. apply collision_or in E as [E|E]; [|auto]. left. apply quota_bytes_inj; assumption. Qed.
Lemma quota_sig_congr md5 r1 r2 :
  let o1 := qop_get (qr_operation r1) in let o2 := qop_get (qr_operation r2) in
  qo_method o1 = qo_method o2 -> qo_consumer o1 = qo_consumer o2 ->
  metric_names (qo_metrics o1) = metric_names (qo_metrics o2) ->
  GenerateAllocateQuotaRequestSignature md5 r1 = GenerateAllocateQuotaRequestSignature md5 r2.
Proof. intros o1 o2 H1 H2 H3. unfold GenerateAllocateQuotaRequestSignature. f_equal. apply quota_bytes_congr; assumption. Qed.
Lemma check_sig_sound md5 ord1 ord2 r1 r2 :
  op_nul_free (op_get (cr_operation r1)) -> op_nul_free (op_get (cr_operation r2)) -> same_label_schema r1 r2 ->
  GenerateCheckRequestSignature ord1 md5 r1 = GenerateCheckRequestSignature ord2 md5 r2 ->
  check_question r1 = check_question r2 \/
  collision md5 (check_request_bytes ord1 r1) (check_request_bytes ord2 r2).
Proof. intros F1 F2 S E. apply collision_or in E as [E|E]; [|auto]. left. eapply check_bytes_inj; eassumption. Qed.
Lemma check_sig_congr md5 ord1 ord2 r1 r2 : check_question r1 = check_question r2 ->
  GenerateCheckRequestSignature ord1 md5 r1 = GenerateCheckRequestSignature ord2 md5 r2.
Proof. intros H. unfold GenerateCheckRequestSignature. f_equal. apply check_bytes_congr, H. Qed.

Lemma check_question_perm r1 r2 :
  let o1 := op_get (cr_operation r1) in let o2 := op_get (cr_operation r2) in
  op_name o1 = op_name o2 -> op_consumer o1 = op_consumer o2 -> op_labels o1 = op_labels o2 ->
  op_mvs o1 ≡ₚ op_mvs o2 -> NoDup (mvs_name <$> op_mvs o1) -> check_question r1 = check_question r2.
Proof.
  intros o1 o2 H1 H2 H3 H4 H5. unfold check_question. fold o1 o2. rewrite H1, H2, H3. f_equal.
  apply list_to_map_proper.
  - rewrite fmap_reverse, reverse_Permutation, <- list_fmap_compose. exact H5.
  - rewrite !reverse_Permutation, H4. reflexivity.
Qed.

Ltac nf := cbn; repeat (split; [vm_compute; discriminate|]); exact I.
Definition w_labels_op : operation := Operation "" "op" "project:p" None None {["a" := "b"]} [] [] LOW "".
Definition w_metrics_op : operation :=
  Operation "" "op" "project:p" None None ∅ [MetricValueSet "a" []; MetricValueSet "b" []] [] LOW "".
Lemma check_sig_refuted : exists r1 r2,
  op_nul_free (op_get (cr_operation r1)) /\ op_nul_free (op_get (cr_operation r2)) /\
  check_question r1 <> check_question r2 /\
  forall md5 ord1 ord2, GenerateCheckRequestSignature ord1 md5 r1 = GenerateCheckRequestSignature ord2 md5 r2.
Proof.
  exists (CheckRequest "s" (Some w_labels_op) "" ""), (CheckRequest "s" (Some w_metrics_op) "" "").
  split; [|split; [|split]].
  - split; [nf|]. split; [nf|]. split; [|constructor].
    intros k v H. cbn in H. apply lookup_singleton_Some in H as [<- <-]. split; nf.
  - split; [nf|]. split; [nf|]. split.
    + intros k v H. cbn in H. rewrite lookup_empty in H. discriminate.
    + cbn. repeat (constructor; [split; [nf|constructor]|]). constructor.
  - intros E. apply (f_equal (fun x => size x.1.2)) in E. vm_compute in E. discriminate.
  - intros md5 ord1 ord2. unfold GenerateCheckRequestSignature. f_equal. rewrite !check_bytes_eq. vm_compute. reflexivity.
Qed.

(** Embedded NULs break the report signature too. *)
Lemma report_sig_nul_refuted : exists o1 o2, op_labels o1 <> op_labels o2 /\ op_name o1 <> op_name o2 /\
  forall md5 ord1 ord2, GenerateReportOperationSignature ord1 md5 o1 = GenerateReportOperationSignature ord2 md5 o2.
Proof.
  exists (Operation "" "op" "c" None None {["a" := "b"]} [] [] LOW ""),
         (Operation "" ("op" +:+ NUL +:+ "a" +:+ NUL +:+ "b") "c" None None ∅ [] [] LOW "").
  split; [|split].
  - cbn. intros E. apply (f_equal (fun m : gmap string string => size m)) in E. vm_compute in E. discriminate.
  - vm_compute. discriminate.
  - intros. unfold GenerateReportOperationSignature. f_equal. rewrite !report_bytes_eq. vm_compute. reflexivity.
Qed.

Lemma label_order_irrelevant md5 ord1 ord2 :
  (forall o, GenerateReportOperationSignature ord1 md5 o = GenerateReportOperationSignature ord2 md5 o) /\
  (forall mv, GenerateReportMetricValueSignature ord1 md5 mv = GenerateReportMetricValueSignature ord2 md5 mv) /\
  (forall r, GenerateCheckRequestSignature ord1 md5 r = GenerateCheckRequestSignature ord2 md5 r).
Proof.
  split; [|split]; intros x; [apply report_sig_congr|apply metric_sig_congr|apply check_sig_congr]; reflexivity.
Qed.

Definition reverse_order : hash_order :=
  {| ho_list := fun V m => reverse (map_to_list m); ho_perm := fun V m => reverse_Permutation _ |}.
Lemma two_orders : exists (ord1 ord2 : hash_order) (m : gmap string string), ho_list ord1 m <> ho_list ord2 m.
Proof.
  exists default_order, reverse_order, (<["a" := "x"]> {["b" := "y"]}). vm_compute. discriminate.
Qed.

Lemma check_sig_perm md5 ord1 ord2 r1 r2 :
  let o1 := op_get (cr_operation r1) in let o2 := op_get (cr_operation r2) in
  op_name o1 = op_name o2 -> op_consumer o1 = op_consumer o2 -> op_labels o1 = op_labels o2 ->
  op_mvs o1 ≡ₚ op_mvs o2 -> NoDup (mvs_name <$> op_mvs o1) ->
  GenerateCheckRequestSignature ord1 md5 r1 = GenerateCheckRequestSignature ord2 md5 r2.
Proof. intros o1 o2 H1 H2 H3 H4 H5. apply check_sig_congr, check_question_perm; assumption. Qed.

Lemma w_ops_nul_free : op_nul_free w_labels_op /\ op_nul_free w_metrics_op.
Proof.
  split.
  - split; [nf|]. split; [nf|]. split; [|constructor].
    intros k v H. cbn in H. apply lookup_singleton_Some in H as [<- <-]. split; nf.
  - split; [nf|]. split; [nf|]. split.
    + intros k v H. cbn in H. rewrite lookup_empty in H. discriminate.
    + cbn. repeat (constructor; [split; [nf|constructor]|]). constructor.
Qed.
Lemma w_qop_nul_free : qop_nul_free (QuotaOperation "" "get" "project:p" ∅ [MetricValueSet "reads" []] 0).
Proof. split; [nf|]. split; [nf|]. constructor; [nf|constructor]. Qed.
Lemma schema_example :
  let mk z := CheckRequest "s" (Some (Operation "" "op" "c" None None {["zone" := z]}
     [MetricValueSet "m" [MetricValue {["k" := z]} None None (VInt64 1)]] [] LOW "")) "" "" in
  same_label_schema (mk "us") (mk "eu") /\ check_question (mk "us") <> check_question (mk "eu").
Proof.
  split.
  - split; [vm_compute; reflexivity|]. intros s1 s2 H1 H2. cbn in H1, H2.
    apply elem_of_list_singleton in H1, H2. subst. vm_compute. reflexivity.
  - vm_compute. discriminate.
Qed.

Lemma quota_sig_congr_names md5 r1 r2 :
  let o1 := qop_get (qr_operation r1) in let o2 := qop_get (qr_operation r2) in
  qo_method o1 = qo_method o2 -> qo_consumer o1 = qo_consumer o2 ->
  mvs_name <$> qo_metrics o1 = mvs_name <$> qo_metrics o2 ->
  GenerateAllocateQuotaRequestSignature md5 r1 = GenerateAllocateQuotaRequestSignature md5 r2.
Proof. intros o1 o2 H1 H2 H3. apply quota_sig_congr; [done..|]. unfold metric_names. by f_equal. Qed.
