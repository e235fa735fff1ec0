(** Facts about single steps of the quota aggregator, in terms of its list of entries. *)
From Verif Require Import Base Proto Signature SignatureSpec SignatureProofs OpAgg OpAggSpec OpAggProofs QuotaOpAggProofs Lru LruSpec LruSim Timeout TimeoutSign Agg QuotaAgg QuotaFuel QuotaSim QuotaStep QuotaStep2 QuotaTrace QuotaAggSpec QuotaCall.
From stdpp Require Import gmap list.
Local Open Scope Z_scope.
Set Implicit Arguments.

Section inv.
Variable debug : bool.
Variable ord : hash_order.
Variable md5 : string -> string.
Variable clk : nat -> Z.
Variable cf : quota_config.
Variable idle : Z.
Notation mx := (qp_entries (qf_options cf)).
Hypothesis Hclk : proper_clock clk.
Notation sg := (qsig md5).
Notation item := (ReturnAllocateQuotaRequest ord cf).
Implicit Types (l : list cell) (x y : cell) (T : list (cell * fate)) (p : cell * fate) (e : quota_elem) (q : quota_request) (ev : quota_event)
  (st : quota_agg) (h : list quota_event).
Let Hmono := proj1 Hclk.
Let Hpos := proj2 Hclk.

(** ** The entries of a state *)
Lemma entry_cell c u fl l k a : Good clk cf idle c u l -> entry (QuotaAgg (Some c) u fl) k = Some a <-> exists x, x ∈ l /\ c_key x = k /\ c_addr x = a.
Proof.
  intros (L & R & _ & _ & _). pose proof (rep_shape R) as S. unfold entry. cbn [qg_cache]. split.
  - destruct (l_table c !! k) as [id|] eqn:E; [|done]. destruct (l_heap c !! id) as [e|] eqn:Eh; [|done]. intros [= <-].
    apply (sh_table S) in E as (e' & Hin & Hk). assert (l_heap c !! id = Some e') as E2 by (apply (sh_heap S); rewrite app_nil_r; done).
    rewrite E2 in Eh. injection Eh as ->. apply elem_of_list_lookup in Hin as [i Hi]. pose proof (rep_same R) as F. eapply Forall2_lookup_l in F as (x & Hx & Hs); [|exact Hi].
    destruct Hs as (H1 & H2 & _). exists x. split; [by eapply elem_of_list_lookup_2|]. cbn in *. by rewrite <- H1, <- H2.
  - intros (x & Hin & <- & <-). apply elem_of_list_lookup in Hin as [i Hi]. pose proof (rep_same R) as F. eapply Forall2_lookup_r in F as ([id e] & Hx & Hs); [|exact Hi].
    apply elem_of_list_lookup_2 in Hx. destruct Hs as (H1 & H2 & _). cbn in *. rewrite <- H1, (shape_find S Hx).
    assert (l_heap c !! id = Some e) as -> by (apply (sh_heap S); rewrite app_nil_r; done). by rewrite H2.
Qed.
Lemma good_keys c u l : Good clk cf idle c u l -> NoDup (c_key <$> l).
Proof. intros (L & R & _). rewrite <- (rep_keys R). apply (rep_shape R). Qed.
Lemma good_addrs c u l : Good clk cf idle c u l -> NoDup (c_addr <$> l).
Proof. intros (L & R & _). apply R. Qed.
Lemma good_fresh c u l x : Good clk cf idle c u l -> x ∈ l -> (c_addr x < p_next u)%nat.
Proof. intros (L & R & _) H. apply (rep_fresh R). by apply elem_of_list_fmap_1. Qed.
Lemma nodup_fst {A B} (f : A -> B) (xs : list A) a b : NoDup (f <$> xs) -> a ∈ xs -> b ∈ xs -> f a = f b -> a = b.
Proof.
  induction xs as [|z xs IH]; [by intros _ ?%elem_of_nil|]. rewrite fmap_cons. intros [H1 H2]%NoDup_cons [->|Ha]%elem_of_cons [->|Hb]%elem_of_cons E; [done|..].
  - destruct H1. rewrite E. by apply elem_of_list_fmap_1.
  - destruct H1. rewrite <- E. by apply elem_of_list_fmap_1.
  - by apply IH.
Qed.

(** ** Passes *)
Lemma after_addr p x : after clk p = Some x -> c_addr x = c_addr p.1.
Proof. unfold after. by destruct p.2; intros [= <-]. Qed.
Lemma after_key p x : after clk p = Some x -> c_key x = c_key p.1.
Proof. unfold after. by destruct p.2; intros [= <-]. Qed.
Lemma passes_from fl lo hi l l' its T x : passes ord clk cf fl lo hi l l' its T -> x ∈ l' -> exists p, p ∈ T /\ after clk p = Some x /\ p.1 ∈ l.
Proof.
  intros (H1 & H2 & H3 & H4 & H5) Hx. rewrite H2, elem_of_list_omap in Hx. destruct Hx as (p & Hp & Ha). exists p. split; [done|]. split; [done|].
  rewrite <- H1. by apply elem_of_list_fmap_1.
Qed.
Lemma passes_to fl lo hi l l' its T x : passes ord clk cf fl lo hi l l' its T -> x ∈ l -> exists p, p ∈ T /\ p.1 = x.
Proof. intros (H1 & _) Hx. rewrite <- H1 in Hx. apply elem_of_list_fmap in Hx as (p & -> & ?). by exists p. Qed.
Lemma omap_keys T l' (f : cell -> string) : (forall p x, after clk p = Some x -> f x = f p.1) -> l' ≡ₚ omap (after clk) T -> NoDup (f <$> T.*1) -> NoDup (f <$> l').
Proof.
  intros Hf P N. rewrite P. clear P. induction T as [|p T IH]; [constructor|]. cbn in *. apply NoDup_cons in N as [N1 N2]. destruct (after clk p) as [x|] eqn:E; [|auto].
  cbn. apply NoDup_cons. split; [|auto]. intros Hin. apply N1. apply elem_of_list_fmap in Hin as (y & Ey & Hy). apply elem_of_list_omap in Hy as (p' & Hp & Hy).
  rewrite <- (Hf _ _ E), Ey, (Hf _ _ Hy). by apply elem_of_list_fmap_1, elem_of_list_fmap_1.
Qed.
Lemma passes_keys fl lo hi l l' its T : passes ord clk cf fl lo hi l l' its T -> NoDup (c_key <$> l) -> NoDup (c_key <$> l').
Proof. intros (H1 & H2 & _) N. eapply omap_keys; [apply after_key|done|]. by rewrite H1. Qed.
Lemma passes_ok fl lo hi l l' its T p : passes ord clk cf fl lo hi l l' its T -> p ∈ T -> fate_ok clk cf fl lo hi p.
Proof. intros (_ & _ & _ & H & _) Hp. rewrite Forall_forall in H. by apply H. Qed.
Lemma passes_item fl lo hi l l' its T q : passes ord clk cf fl lo hi l l' its T -> q ∈ its -> exists p i j k, p ∈ T /\ p.2 = Sent i j k /\ q = item (c_elem p.1) /\ p.1 ∈ l.
Proof.
  intros (H1 & H2 & -> & H4 & H5) Hq. apply elem_of_list_omap in Hq as (p & Hp & Hs). unfold sent in Hs. destruct p.2 as [| |i j k|] eqn:E; try done. injection Hs as <-.
  exists p, i, j, k. split_and!; try done. rewrite <- H1. by apply elem_of_list_fmap_1.
Qed.
Lemma passes_sent fl lo hi l l' its T p i j k : passes ord clk cf fl lo hi l l' its T -> p ∈ T -> p.2 = Sent i j k -> item (c_elem p.1) ∈ its.
Proof. intros (H1 & H2 & -> & H4 & H5) Hp E. apply elem_of_list_omap. exists p. split; [done|]. unfold sent. by rewrite E. Qed.
Lemma passes_unique fl lo hi l l' its T p p' : passes ord clk cf fl lo hi l l' its T -> NoDup (c_key <$> l) -> p ∈ T -> p' ∈ T -> c_key p.1 = c_key p'.1 -> p = p'.
Proof.
  intros (H1 & _) N Hp Hp' E. rewrite <- H1, <- list_fmap_compose in N. by eapply (nodup_fst (c_key ∘ fst)).
Qed.

(** ** Signatures of what is handed out *)
(** [o] is the operation of a quota request of the history with signature [k]. *)
Definition op_of h k (o : quota_operation) : Prop := exists ev q, ev ∈ h /\ qv_call ev = QQuota q /\ qop_get (qr_operation q) = o /\ sg q = k.
Definition qstart (f : quota_operation) (r : list quota_operation) : outcome qopagg :=
  let! a := NewQuotaOperationAggregator debug f in ofold (fun a o => QuotaMergeOperation debug o a) a r.
Definition qbuilt (oa : option qopagg) (g : list quota_operation) : Prop :=
  match g with [] => oa = None | f :: r => exists a, oa = Some a /\ qstart f r = Ok a end.
Lemma qbuilt_adds oa f r a : qbuilt oa (f :: r) -> oa = Some a -> quota_aggregate debug ord f r = Ok (QuotaToOperationProto ord a).
Proof.
  intros (a' & -> & E) [= ->]. unfold quota_aggregate, qstart in *. destruct (NewQuotaOperationAggregator debug f); try done. cbn [obind] in *. by rewrite E.
Qed.
Lemma qstart_snoc f r a o : qstart f r = Ok a -> qstart f (r ++ [o]) = QuotaMergeOperation debug o a.
Proof.
  unfold qstart. destruct (NewQuotaOperationAggregator debug f) as [a0| | |]; try done. cbn [obind]. intros E.
  assert (forall s xs, ofold (fun a o => QuotaMergeOperation debug o a) s xs = Ok a -> ofold (fun a o => QuotaMergeOperation debug o a) s (xs ++ [o]) = QuotaMergeOperation debug o a) as H; [|by apply H].
  clear. intros s xs. revert s. induction xs as [|y xs IH]; intros s; cbn [app ofold].
  - intros [= ->]. by destruct (QuotaMergeOperation debug o a).
  - destruct (QuotaMergeOperation debug y s); try done. cbn [obind]. apply IH.
Qed.
Lemma qbuilt_more e q e' g : qbuilt (qe_agg e) g -> QAggregate debug q e = Ok e' -> qbuilt (qe_agg e') (g ++ [qop_get (qr_operation q)]).
Proof.
  unfold QAggregate. destruct g as [|f r]; cbn [qbuilt app].
  - intros ->. destruct (NewQuotaOperationAggregator _ _) as [a| | |] eqn:E; try done. intros [= <-]. exists a. split; [done|]. unfold qstart. by rewrite E.
  - intros (a & -> & E). destruct (QuotaMergeOperation _ _ _) as [a1| | |] eqn:E1; try done. intros [= <-]. exists a1. split; [done|]. by rewrite (qstart_snoc _ _ _ E).
Qed.
(** Merging fails only if the merge of these operations is undefined. *)
Lemma qbuilt_fails e q g : qbuilt (qe_agg e) g -> (forall e', QAggregate debug q e <> Ok e') ->
  exists f r, g ++ [qop_get (qr_operation q)] = f :: r /\ forall o, quota_aggregate debug ord f r <> Ok o.
Proof.
  intros B H. unfold QAggregate in H. destruct g as [|f r]; cbn [qbuilt app] in *.
  - rewrite B in H. exists (qop_get (qr_operation q)), []. split; [done|]. intros o E. unfold quota_aggregate in E. 
    destruct (NewQuotaOperationAggregator _ _) as [a| | |]; try done. by eapply H.
  - destruct B as (a & Ea & B). rewrite Ea in H. exists f, (r ++ [qop_get (qr_operation q)]). split; [done|]. intros o E.
    apply (qstart_snoc _ _ (qop_get (qr_operation q))) in B. unfold quota_aggregate, qstart in *. destruct (NewQuotaOperationAggregator debug f) as [a0| | |]; try done.
    cbn [obind] in *. rewrite B in E. destruct (QuotaMergeOperation _ _ _); try done. by eapply H.
Qed.
Lemma names_union f r o : quota_aggregate debug ord f r = Ok o ->
  qo_method o = qo_method f /\ qo_consumer o = qo_consumer f /\ forall n, n ∈ metric_names (qo_metrics o) <-> exists o', o' ∈ f :: r /\ n ∈ metric_names (qo_metrics o').
Proof.
  rewrite quota_aggregate_run. destruct (ofold _ ∅ _) as [s| | |] eqn:E; try done. cbn [obind]. intros [= <-]. apply qsets_look in E as [_ D].
  split; [done|]. split; [done|]. intros n. unfold metric_names. rewrite elem_of_list_to_set. cbn [QuotaToOperationProto qo_metrics qa_sets]. rewrite <- list_fmap_compose.
  assert (n ∈ (mvs_name ∘ (fun nv : string * metric_value => MetricValueSet nv.1 [nv.2])) <$> ho_list ord s <-> n ∈ dom s) as ->.
  { rewrite elem_of_dom, elem_of_list_fmap. split.
    - intros ([k v] & -> & H%(QuotaStep2.ho_elem ord)). cbn. eauto.
    - intros [v H]. exists (n, v). split; [done|]. by apply (QuotaStep2.ho_elem ord). }
  rewrite D, dom_empty_L, elem_of_union, elem_of_list_to_set. split.
  - intros [?|(t & -> & (o & ? & ?)%elem_of_list_bind)%elem_of_list_fmap]; [set_solver|].
    exists o. split; [done|]. apply elem_of_list_to_set. apply elem_of_list_fmap. eauto.
  - intros (o & Ho & Hn). right. apply elem_of_list_to_set, elem_of_list_fmap in Hn as (t & -> & Ht). apply elem_of_list_fmap. exists t. split; [done|].
    apply elem_of_list_bind. eauto.
Qed.

Definition owned h x : Prop :=
  sg (qe_request (c_elem x)) = c_key x /\ op_of h (c_key x) (qop_get (qr_operation (qe_request (c_elem x)))) /\
  exists g, qbuilt (qe_agg (c_elem x)) g /\ Forall (op_of h (c_key x)) g.
Lemma op_about h k o1 o2 : told_apart md5 h -> op_of h k o1 -> op_of h k o2 ->
  qo_method o1 = qo_method o2 /\ qo_consumer o1 = qo_consumer o2 /\ metric_names (qo_metrics o1) = metric_names (qo_metrics o2).
Proof.
  intros A (ev1 & q1 & H1 & E1 & <- & K1) (ev2 & q2 & H2 & E2 & <- & K2). assert (about q1 = about q2) as E by (eapply A; [exact H1|exact H2|done|done|congruence]).
  unfold about in E. by injection E.
Qed.
Lemma item_sig h x : told_apart md5 h -> owned h x -> sg (item (c_elem x)) = c_key x.
Proof.
  intros A (H1 & H2 & g & B & F). unfold item. destruct g as [|f r].
  - cbn in B. by rewrite B.
  - destruct B as (a & Ea & B). rewrite Ea. rewrite <- H1.
    assert (quota_aggregate debug ord f r = Ok (QuotaToOperationProto ord a)) as Q by (eapply qbuilt_adds; [|done]; eexists; done).
    apply names_union in Q as (Q1 & Q2 & Q3). apply quota_sig_congr; cbn [qr_operation qop_get default].
    + etrans; [exact Q1|]. apply Forall_cons in F as [F _]. by apply (op_about A F H2).
    + etrans; [exact Q2|]. apply Forall_cons in F as [F _]. by apply (op_about A F H2).
    + apply set_eq. intros n. etrans; [exact (Q3 n)|]. split.
      * intros (o & Ho & Hn). rewrite Forall_forall in F. destruct (op_about A (F o Ho) H2) as (_ & _ & <-). done.
      * intros Hn. exists f. split; [constructor|]. apply Forall_cons in F as [F _]. by destruct (op_about A F H2) as (_ & _ & ->).
Qed.
Lemma normal_sig q : sg (in_normal_mode q) = sg q.
Proof. by apply quota_sig_congr. Qed.
Lemma owned_after h p x : after clk p = Some x -> owned h p.1 -> owned h x.
Proof.
  unfold after. destruct p.2 as [|i j|i j k|i]; intros [= <-]; try done. intros (H1 & H2 & _). split_and!; try done. exists []. split; [done|]. by apply Forall_nil_2.
Qed.
Lemma op_of_mono h h' k o : (forall ev, ev ∈ h -> ev ∈ h') -> op_of h k o -> op_of h' k o.
Proof. intros H (ev & q & Hin & ?). exists ev, q. split; [by apply H|done]. Qed.
Lemma owned_mono h h' x : (forall ev, ev ∈ h -> ev ∈ h') -> owned h x -> owned h' x.
Proof.
  intros H (H1 & H2 & g & B & F). split_and!; try done; [by eapply op_of_mono|]. exists g. split; [done|]. eapply Forall_impl; [exact F|]. intros o. by apply op_of_mono.
Qed.
End inv.
