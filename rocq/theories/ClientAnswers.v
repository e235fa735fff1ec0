(** Where the answers that the callers of the client are given come from: proofs for PropsClient4.v. *)
From Verif Require Import Base Proto Signature OpAgg Lru LruSpec Timeout Agg CheckAgg CheckAggSpec CheckAggClaims QuotaAgg QuotaAggSpec QuotaStep QuotaMove QuotaInv QuotaLife QuotaAggClaims ReportAgg ReportAggSpec Client ClientSpec ClientInv ClientCalls ClientStage ClientFacts ClientClaims PAggProofs.
From stdpp Require Import gmap list.
Local Open Scope Z_scope.
Set Implicit Arguments.

(** ** Calls in the middle of a history *)
Lemma creach_at ord md5 clk cf st h n ev : creach ord md5 clk cf st h -> h !! n = Some ev ->
  exists st0 h1 h2, h = h1 ++ ev :: h2 /\ length h1 = n /\ creach ord md5 clk cf st0 h1 /\ cstep ord md5 clk cf (cv_call ev) st0 = Ok (cv_after ev, cv_result ev).
Proof.
  intros R. revert n ev. induction R as [st H|st h call st' res R IH Hs]; intros n ev Hn; [done|].
  apply lookup_app_Some in Hn as [Hn|[Hle Hn]].
  - destruct (IH _ _ Hn) as (st0 & h1 & h2 & -> & Hl & R1 & E). exists st0, h1, (h2 ++ [CheckEvent call res (readings st) (readings st') st']). split; [by rewrite <- app_assoc|done].
  - apply list_lookup_singleton_Some in Hn as [Hz <-]. exists st, h, []. split_and!; [done|lia|done|done].
Qed.
Lemma qreach_at debug ord md5 clk cf st h n ev : qreach debug ord md5 clk cf st h -> h !! n = Some ev ->
  exists st0 h1 h2, h = h1 ++ ev :: h2 /\ length h1 = n /\ qreach debug ord md5 clk cf st0 h1 /\ returns debug ord md5 clk cf (qv_call ev) st0 (qv_after ev, qv_result ev).
Proof.
  intros R. revert n ev. induction R as [st H|st h call st' res R IH Hs]; intros n ev Hn; [done|].
  apply lookup_app_Some in Hn as [Hn|[Hle Hn]].
  - destruct (IH _ _ Hn) as (st0 & h1 & h2 & -> & Hl & R1 & E). exists st0, h1, (h2 ++ [QuotaEvent call res (qreadings st) (qreadings st') st']). split; [by rewrite <- app_assoc|done].
  - apply list_lookup_singleton_Some in Hn as [Hz <-]. exists st, h, []. split_and!; [done|lia|done|done].
Qed.

(** ** What a quota call answers *)
Lemma quota_told debug ord md5 clk cf st h q st' res : proper_clock clk -> qreach debug ord md5 clk cf st h -> returns debug ord md5 clk cf (QQuota q) st (st', res) ->
  qres_status res = SOk -> qres_response res = Some empty_quota_response \/
    exists h1 ev1 h2 r, h = h1 ++ ev1 :: h2 /\ responds_with md5 (qsig md5 q) r ev1 /\ Forall (fun ev => ~ responds md5 (qsig md5 q) ev) h2 /\ qres_response res = Some r.
Proof.
  intros Hclk R Hs Ho. destruct (Z.le_gt_cases (qp_entries (qf_options cf)) 0) as [Hm|Hm].
  { destruct (reach_off Hm R) as [Hoff _]. destruct Hs as [fuel Hs]. cbn [qstep] in Hs. unfold Quota in Hs. rewrite Hoff in Hs.
    destruct (negb _); [by injection Hs as <- <-|]. destruct (qr_operation q); injection Hs as <- <-; by left. }
  apply Z.gt_lt in Hm || idtac.
  assert (well_addressed cf q) as Hw.
  { destruct Hs as [fuel Hs]. cbn [qstep] in Hs. unfold Quota in Hs. destruct (negb (String.eqb (qr_service q) (qf_service cf))) eqn:E1; [by injection Hs as <- <-|].
    apply negb_false_iff, String.eqb_eq in E1. split; [done|]. destruct (qr_operation q); [done|by injection Hs as <- <-]. }
  destruct (first_quota Hclk Hm R Hs Hw) as (_ & Hc' & Hfirst).
  destruct (entry st (qsig md5 q)) as [a|] eqn:Ea.
  2:{ left. apply Hfirst. intros [Hc _]. unfold qcached in Hc. by rewrite Ea in Hc. }
  destruct (decide (entry st' (qsig md5 q) = Some a)) as [Es|Es].
  2:{ left. apply Hfirst. intros [_ He]. by rewrite Ea in He. }
  destruct (cached_life Hclk _ R Ea) as (_ & _ & _ & _ & x0 & _ & _ & _ & Hk0 & Ha0 & L0 & _).
  assert (Exists (fun ev => entry (qv_after ev) (qsig md5 q) = Some a) h) as Hex.
  { destruct (lv_born L0) as (h0 & ev0 & T & -> & _ & _ & _ & _ & Hin & _). apply Exists_app. right. apply Exists_cons. left. rewrite <- Ha0, <- Hk0. by inversion Hin. }
  destruct (same_cell Hclk _ R Hs Es Hex) as (fl & l & x & x' & s & c & u & -> & G & Hx & Hk & Ha & L & _ & Mv).
  destruct Mv as (_ & _ & _ & _ & _ & M6 & _ & M8 & _).
  assert (qasks md5 cf (c_key x) (QuotaEvent (QQuota q) res (qreadings (QuotaAgg (Some c) u fl)) (qreadings st') st')) as Hq by (exists q; split_and!; done).
  assert (qe_response (c_elem x') = qe_response (c_elem x)) as Er. { destruct M6 as [(? & ? & _)|[_ M6]]; done. }
  specialize (M8 Hq). cbn in M8. rewrite M8, Er.
  destruct (lv_born L) as (h0 & ev0 & T & E & _ & _ & _ & _ & _ & Hr & _).
  destruct Hr as [[-> _]|(T1 & ev & T2 & -> & Hr & Hn)]; [by left|]. right. rewrite Hk in *.
  exists (h0 ++ ev0 :: T1), ev, T2, (qe_response (c_elem x)). split; [by rewrite E, <- app_assoc|done].
Qed.
Lemma rreach_split ord md5 clk cf st h n ev : rreach ord md5 clk cf st h -> h !! n = Some ev ->
  exists st0 h1 h2, h = h1 ++ ev :: h2 /\ rreach ord md5 clk cf st0 h1 /\ rstep ord md5 clk cf (rv_call ev) st0 = Ok (rv_after ev, rv_result ev).
Proof.
  intros R. revert n ev. induction R as [st H|st h call st' res R IH Hs]; intros n ev Hn; [done|].
  apply lookup_app_Some in Hn as [Hn|[_ Hn]].
  - destruct (IH _ _ Hn) as (st0 & h1 & h2 & -> & R1 & E). exists st0, h1, (h2 ++ [ReportEvent call res (rreadings st) (rreadings st') st']). split; [by rewrite <- app_assoc|done].
  - apply list_lookup_singleton_Some in Hn as [_ <-]. by exists st, h, [].
Qed.

(** ** The errors of the aggregators *)
(** The request is for another service, or has no operation (a report may have none). *)
Definition unusable (cf : client_config) (q : request) : Prop :=
  match q with
  | RqCheck q => cr_service q <> cf_service cf \/ cr_operation q = None
  | RqQuota q => qr_service q <> cf_service cf \/ qr_operation q = None
  | RqReport q => rr_service q <> cf_service cf
  end.
Lemma check_errors ord md5 clk cf q st st' res : cstep ord md5 clk (cf_checks cf) (CCheck q) st = Ok (st', res) -> cres_status res <> SOk -> cres_status res <> SNotFound ->
  cres_status res = SInvalidArgument /\ cres_response res = None /\ unusable cf (RqCheck q).
Proof.
  cbn [cstep]. unfold Check. destruct (negb _) eqn:E1; [intros [= <- <-]; intros; split; [done|]; split; [done|]; left; by apply negb_true_iff, String.eqb_neq in E1|].
  destruct (cr_operation q) eqn:E2; [|intros [= <- <-]; intros; split; [done|]; split; [done|]; by right]. destruct (ca_cache st); [|by intros [= <- <-]].
  destruct (negb (op_importance _ =? LOW)); [by intros [= <- <-]|]. intros (wr & _ & H)%obind_ok_inv. destruct wr.2; [|by injection H as <- <-].
  apply obind_ok_inv in H as (e & _ & H). destruct (0 <? _).
  - destruct (ShouldFlush _ _ _); apply obind_ok_inv in H as (? & _ & H); by injection H as <- <-.
  - apply obind_ok_inv in H as (e' & _ & H). destruct (ShouldFlush _ _ _); apply obind_ok_inv in H as (? & _ & H); by injection H as <- <-.
Qed.
Lemma quota_addressed debug ord md5 clk cf q st st' res : returns debug ord md5 clk cf (QQuota q) st (st', res) ->
  well_addressed cf q \/ (res = QuotaResult SInvalidArgument None [] /\ (qr_service q <> qf_service cf \/ qr_operation q = None)).
Proof.
  intros [fuel Hs]. cbn [qstep] in Hs. unfold Quota in Hs. destruct (negb (String.eqb (qr_service q) (qf_service cf))) eqn:E1.
  { right. injection Hs as <- <-. apply negb_true_iff, String.eqb_neq in E1. auto. }
  apply negb_false_iff, String.eqb_eq in E1. destruct (qr_operation q) eqn:E2; [left; split; [done|by rewrite E2]|right; injection Hs as <- <-; auto].
Qed.
Lemma quota_errors debug ord md5 clk cf q st h st' res : proper_clock clk -> qreach debug ord md5 clk (cf_quotas cf) st h ->
  returns debug ord md5 clk (cf_quotas cf) (QQuota q) st (st', res) -> qres_status res <> SOk -> qres_status res <> SNotFound ->
  qres_status res = SInvalidArgument /\ qres_response res = None /\ unusable cf (RqQuota q).
Proof.
  intros Hclk R Hs H1 H2. destruct (quota_addressed Hs) as [Hw|[-> Hu]]; [|done]. destruct (Z.le_gt_cases (qp_entries (qf_options (cf_quotas cf))) 0) as [Hm|Hm].
  - destruct (reach_off Hm R) as [Hoff _]. destruct Hs as [fuel Hs]. cbn [qstep] in Hs. unfold Quota in Hs. rewrite Hoff in Hs.
    destruct Hw as [Hw1%String.eqb_eq Hw2]. rewrite Hw1 in Hs. cbn [negb] in Hs. destruct (qr_operation q); [|done]. by injection Hs as <- <-.
  - by destruct (first_quota Hclk Hm R Hs Hw).
Qed.
Lemma report_errors ord md5 clk cf q st st' res : rstep ord md5 clk (cf_reports cf) (RReport q) st = Ok (st', res) -> rres_status res <> SOk -> rres_status res <> SNotFound ->
  rres_status res = SInvalidArgument /\ unusable cf (RqReport q).
Proof.
  cbn [rstep]. unfold Report. destruct (negb _) eqn:E1; [intros [= <- <-]; intros; split; [done|]; by apply negb_true_iff, String.eqb_neq in E1|].
  destruct (HasHighImportantOperation _); [by intros [= <- <-]|]. destruct (ra_cache st); [|by intros [= <- <-]]. intros (wr & _ & H)%obind_ok_inv. by injection H as <- <-.
Qed.

Lemma no_tail {A} (x : A) l1 l2 a b : l1 ++ x :: l2 = a ++ b -> x ∉ b -> exists l2', a = l1 ++ x :: l2'.
Proof.
  revert a. induction l1 as [|y l1 IH]; intros [|z a] E Hb; cbn in E.
  - subst b. set_solver.
  - injection E as -> _. by exists a.
  - subst b. set_solver.
  - injection E as -> E. destruct (IH _ E Hb) as [l2' ->]. by exists l2'.
Qed.

Section answers.
Variable debug : bool.
Variable ord : hash_order.
Variable md5 : string -> string.
Variable clk : kind -> nat -> Z.
Variable cf : client_config.
Notation reach := (reach debug ord md5 clk cf).
Notation estep := (estep debug ord md5 clk cf).
Implicit Types (w : world) (t : nat) (i : instr) (ths : list (list instr)) (tr : list event).

(** ** The moment of an answer *)
Lemma done_step t w i new w' : estep t w i new w' ->
  (exists c s r, w_trace w' = w_trace w ++ [EDone t c s r]) \/
  (exists l, w_trace w' = w_trace w ++ l /\ forall t' c s r, EDone t' c s r ∉ l).
Proof.
  intros E. destruct E; wsimpl; try (right; exists []; split; [by rewrite app_nil_r|by intros ???? ?%elem_of_nil]);
    try (right; eexists [_]; split; [reflexivity|]; by intros ???? ?%elem_of_list_singleton).
  - right. eexists [_; _]. rewrite <- app_assoc. split; [reflexivity|]. intros ???? H. set_solver.
  - left. eauto.
Qed.
Lemma done_moment ths w l1 t c s r l2 : reach (ths, w) -> w_trace w = l1 ++ EDone t c s r :: l2 ->
  exists ths' w', reach (ths', w') /\ w_trace w' = l1 ++ [EDone t c s r].
Proof.
  intros R. remember (ths, w) as st eqn:Est. revert ths w Est l2. induction R as [a Ha|[ths0 w0] t0 ch s' R IH E]; intros ths w Est l2 Ew.
  { injection Est as <- <-. by destruct l1. }
  subst s'. assert (reach (ths, w)) as R' by (by econstructor). unfold Client.step in E. cbn [fst snd] in E. destruct (w_crash w0); [done|].
  destruct (ths0 !! t0) as [[|i rest]|]; [done| |injection E as <- <-; by eapply IH].
  destruct (exec _ _ _ _ _ _ _ _ w0) as [[new w1]|] eqn:Ee; [|done]. injection E as <- <-. apply exec_estep in Ee.
  destruct (done_step Ee) as [(c1 & s1 & r1 & E1)|(l & E1 & Hl)]; rewrite Ew in E1.
  - destruct l2 as [|ev l2 _] using rev_ind; [by eauto|]. rewrite app_comm_cons, app_assoc in E1. apply app_inj_tail in E1 as [E1 _]. by eapply IH.
  - destruct (no_tail _ _ _ E1 (Hl t c s r)) as [l2' E2]. by eapply IH.
Qed.
Lemma done_prefix ths w l1 t c s r l2 : reach (ths, w) -> w_trace w = l1 ++ EDone t c s r :: l2 ->
  exists ths' w' a l, reach (ths', w') /\ w_trace w' = l1 ++ [EDone t c s r] /\ settled cf w' c a s r l /\ story c l1 = l.
Proof.
  intros R E. destruct (@done_moment ths w l1 t c s r l2 R E) as (ths' & w' & R' & E'). destruct (answer (t:=t) (c:=c) (s:=s) (r:=r) R') as (a & l & H1 & H2).
  { rewrite E'. set_solver. }
  exists ths', w', a, l. split; [done|]. split; [done|]. split; [done|]. rewrite E' in H2. unfold story in H2 |- *. rewrite bind_app in H2.
  cbn [mbind list_bind app concerns] in H2. rewrite Nat.eqb_refl in H2. by apply app_inj_tail in H2 as [H2 _].
Qed.
Lemma story_elem ev c tr l : story c tr = l -> ev ∈ l -> ev ∈ tr.
Proof. unfold story. intros <- (ev' & H & Hin)%elem_of_list_bind. destruct (concerns c ev'); [|by apply elem_of_nil in H]. by apply elem_of_list_singleton in H as ->. Qed.
Lemma completed_before l1 t c s r t' m s' r' b : ECompleted t' m s' r' b ∈ l1 ++ [EDone t c s r] -> ECompleted t' m s' r' b ∈ l1.
Proof. rewrite elem_of_app, elem_of_list_singleton. by intros [?|?]. Qed.
Lemma sent_before l1 t c s r t' m o q : ETransport t' m o q ∈ l1 ++ [EDone t c s r] -> ETransport t' m o q ∈ l1.
Proof. rewrite elem_of_app, elem_of_list_singleton. by intros [?|?]. Qed.

(** An answer is the one that the server gave to the call itself, or that the aggregator gave at once, or there was no transport. *)
Lemma answer_cases ths w l1 t c s r l2 t0 a : reach (ths, w) -> w_trace w = l1 ++ EDone t c s r :: l2 -> EStart t0 c a ∈ l1 ->
  (has_transport cf a = true /\ exists t1 m t2 b, ETransport t1 m (FromCall c) (ap_request a) ∈ l1 /\ ECompleted t2 m s r b ∈ l1) \/
  ((forall t1 m q, ETransport t1 m (FromCall c) q ∉ l1) /\
   ((has_transport cf a = false /\ s = SInvalidArgument /\ r = RpNone) \/
    (has_transport cf a = true /\ exists ths' w' n rs, reach (ths', w') /\ w_trace w' = l1 ++ [EDone t c s r] /\
     calls (kind_of (ap_request a)) (w_aggs w') !! n = Some (agg_call_of (ap_request a), rs) /\ rs_status rs <> SNotFound /\ s = rs_status rs /\ r = rs_reply rs))).
Proof.
  intros R E H0. destruct (@done_prefix ths w l1 t c s r l2 R E) as (ths' & w' & a' & l & R' & E' & S & Hl).
  assert (a' = a) as ->.
  { destruct (settled_start S) as (t' & l' & El). destruct (start_unique (t:=t') (c:=c) (a:=a') (t':=t0) (a':=a) R') as [_ ->]; [| |done].
    - rewrite E'. apply elem_of_app. left. eapply story_elem; [exact Hl|]. rewrite El. constructor.
    - rewrite E'. set_solver. }
  assert (forall t1 m q, ETransport t1 m (FromCall c) q ∈ l1 -> ETransport t1 m (FromCall c) q ∈ l) as Hf.
  { intros t1 m q Hin. rewrite <- Hl. unfold story. apply elem_of_list_bind. eexists. split; cycle 1; [exact Hin|]. cbn. rewrite Nat.eqb_refl. constructor. }
  inversion S as [t1 Ht|t1 n rs Ht Hc Hs|t1 t2 n rs m s1 rp b Ht Hc Hs Hco]; subst s r.
  - right. split; [|by left]. intros t2 m q Hin%Hf. subst l. match goal with H : _ = story c l1 |- _ => rewrite <- H in Hin end. repeat (apply elem_of_cons in Hin as [Hin|Hin]; [done|]). by apply elem_of_nil in Hin.
  - right. split; [|right; split; [done|]; eauto 10]. intros t2 m q Hin%Hf. subst l. match goal with H : _ = story c l1 |- _ => rewrite <- H in Hin end. repeat (apply elem_of_cons in Hin as [Hin|Hin]; [done|]). by apply elem_of_nil in Hin.
  - left. split; [done|]. exists t1, m, t2, b. split.
    + eapply story_elem; [exact Hl|]. subst l. match goal with H : _ = story c l1 |- _ => rewrite <- H end. do 2 apply elem_of_list_further. constructor.
    + rewrite E' in Hco. by eapply completed_before.
Qed.

Lemma check_told ths w l1 t c r l2 t0 a q : proper_clock (clk KCheck) -> reach (ths, w) -> w_trace w = l1 ++ EDone t c SOk r :: l2 ->
  EStart t0 c a ∈ l1 -> ap_request a = RqCheck q ->
  (exists t1 m t2 b, ETransport t1 m (FromCall c) (RqCheck q) ∈ l1 /\ ECompleted t2 m SOk r b ∈ l1) \/
  (eligible (cf_checks cf) q = true /\ exists t1 m c' q' t2 rp b, ETransport t1 m (FromCall c') (RqCheck q') ∈ l1 /\ ECompleted t2 m SOk rp b ∈ l1 /\
     sig_of ord md5 q' = sig_of ord md5 q /\ r = RpCheck (check_reply rp)).
Proof.
  intros Hclk R E H0 Ha. destruct (@answer_cases ths w l1 t c SOk r l2 t0 a R E H0) as [(_ & t1 & m & t2 & b & H1 & H2)|(_ & [(_ & ? & _)|(_ & ths' & w' & n & rs & R' & E' & Hn & Hs & Es & ->)])]; [|done|].
  { left. rewrite Ha in H1. eauto 10. }
  right. rewrite Ha in Hn. cbn [kind_of agg_call_of calls] in Hn. apply list_lookup_fmap_Some in Hn as (ev & Hn & [= Hcall ->]).
  destruct (reach_sequential R') as (Rc & _). destruct (creach_at _ Rc Hn) as (st0 & h1 & h2 & Eh & _ & R1 & Hst). rewrite <- Hcall in Hst.
  pose proof (answers_latest Hclk _ R1 Hst) as A. cbn [check_res rs_status rs_reply] in *. rewrite <- Es in A. destruct A as (He & r' & ev' & Er & (h3 & h4 & -> & _) & q' & Hq' & Hsig).
  split; [done|]. assert (calls KCheck (w_aggs w') !! length h3 = Some (OnCheck (CCacheResponse q' r'), check_res (cv_result ev'))) as Hc.
  { cbn [calls]. rewrite list_lookup_fmap, Eh, <- app_assoc. cbn [app]. rewrite list_lookup_middle by done. cbn. by rewrite Hq'. }
  destruct (check_justified _ R' Hc) as (t1 & m & c' & t2 & rp & b & J1 & J2 & ->). rewrite E' in J1, J2.
  exists t1, m, c', q', t2, rp, b. split; [by eapply sent_before|]. split; [by eapply completed_before|]. split; [done|]. by rewrite Er.
Qed.
Lemma quota_told_client ths w l1 t c r l2 t0 a q : proper_clock (clk KQuota) -> reach (ths, w) -> w_trace w = l1 ++ EDone t c SOk r :: l2 ->
  EStart t0 c a ∈ l1 -> ap_request a = RqQuota q ->
  (exists t1 m t2 b, ETransport t1 m (FromCall c) (RqQuota q) ∈ l1 /\ ECompleted t2 m SOk r b ∈ l1) \/
  (well_addressed (cf_quotas cf) q /\ (r = RpQuota empty_quota_response \/
   exists t1 m o q' t2 rp b, ETransport t1 m o (RqQuota q') ∈ l1 /\ ECompleted t2 m SOk rp b ∈ l1 /\
     qsig md5 q' = qsig md5 q /\ r = RpQuota (quota_reply rp))).
Proof.
  intros Hclk R E H0 Ha. destruct (@answer_cases ths w l1 t c SOk r l2 t0 a R E H0) as [(_ & t1 & m & t2 & b & H1 & H2)|(_ & [(_ & ? & _)|(_ & ths' & w' & n & rs & R' & E' & Hn & Hs & Es & ->)])]; [|done|].
  { left. rewrite Ha in H1. eauto 10. }
  right. rewrite Ha in Hn. cbn [kind_of agg_call_of calls] in Hn. apply list_lookup_fmap_Some in Hn as (ev & Hn & [= Hcall ->]).
  destruct (reach_sequential R') as (_ & Rc & _). destruct (qreach_at _ Rc Hn) as (st0 & h1 & h2 & Eh & _ & R1 & Hst). rewrite <- Hcall in Hst.
  cbn [quota_res rs_status rs_reply] in *. split; [destruct (quota_addressed Hst) as [?|[Er _]]; [done|by rewrite Er in Es]|].
  destruct (quota_told Hclk R1 Hst (eq_sym Es)) as [Er|(h3 & ev' & h4 & r' & -> & (q' & Hq' & Hsig) & _ & Er)]; rewrite Er; [by left|].
  assert (calls KQuota (w_aggs w') !! length h3 = Some (OnQuota (QResponse q' r'), quota_res (qv_result ev'))) as Hc.
  { cbn [calls]. rewrite list_lookup_fmap, Eh, <- app_assoc. cbn [app]. rewrite list_lookup_middle by done. cbn. by rewrite Hq'. }
  destruct (quota_justified _ R' Hc) as (t1 & m & o & t2 & s & rp & b & J1 & J2 & J3). rewrite E' in J1, J2. destruct J3 as [[-> ->]|[_ ->]]; [right|by left].
  exists t1, m, o, q', t2, rp, b. split; [by eapply sent_before|]. split; [by eapply completed_before|]. by split.
Qed.

(** The answer is the latest one that was recorded. *)
Lemma answer_now ths w t c s r t0 a : reach (ths, w) -> EDone t c s r ∈ w_trace w -> EStart t0 c a ∈ w_trace w -> has_transport cf a = true ->
  (forall t1 m q, ETransport t1 m (FromCall c) q ∉ w_trace w) ->
  exists t1 n rs, EAgg t1 (kind_of (ap_request a)) n (Some c) ∈ w_trace w /\ calls (kind_of (ap_request a)) (w_aggs w) !! n = Some (agg_call_of (ap_request a), rs) /\ s = rs_status rs /\ r = rs_reply rs.
Proof.
  intros R H H0 Ht Hno. destruct (answer R H) as (a' & l & S & Hl).
  assert (a' = a) as ->.
  { destruct (settled_start S) as (t' & l' & El). destruct (start_unique (t:=t') (c:=c) (a:=a') (t':=t0) (a':=a) R) as [_ ->]; [|done|done].
    eapply story_elem; [exact Hl|]. rewrite El. constructor. }
  assert (forall ev, ev ∈ l -> ev ∈ w_trace w) as Hin by (intros ev He; eapply story_elem; [exact Hl|]; apply elem_of_app; by left).
  inversion S as [t1 Hf|t1 n rs _ Hc Hs|t1 t2 n rs m s1 rp b _ Hc Hs Hco]; subst.
  - congruence.
  - exists t1, n, rs. split; [apply Hin; do 1 apply elem_of_list_further; constructor|done].
  - destruct (Hno t1 m (ap_request a)). apply Hin. do 2 apply elem_of_list_further. constructor.
Qed.
Lemma check_latest ths w t c r t0 a q : proper_clock (clk KCheck) -> reach (ths, w) -> EDone t c SOk r ∈ w_trace w -> EStart t0 c a ∈ w_trace w ->
  ap_request a = RqCheck q -> (forall t1 m q, ETransport t1 m (FromCall c) q ∉ w_trace w) ->
  exists t1 n n' q' rp rs, EAgg t1 KCheck n (Some c) ∈ w_trace w /\ (n' < n)%nat /\
    calls KCheck (w_aggs w) !! n' = Some (OnCheck (CCacheResponse q' rp), rs) /\ sig_of ord md5 q' = sig_of ord md5 q /\ r = RpCheck rp /\
    forall n2 q'' rp'' rs'', (n' < n2 < n)%nat -> calls KCheck (w_aggs w) !! n2 = Some (OnCheck (CCacheResponse q'' rp''), rs'') -> sig_of ord md5 q'' <> sig_of ord md5 q.
Proof.
  intros Hclk R H H0 Ha Hno. destruct (has_transport cf a) eqn:Ht.
  2:{ destruct (answer R H) as (a' & l & S & Hl). destruct (settled_start S) as (t' & l' & El).
      destruct (start_unique (t:=t') (c:=c) (a:=a') (t':=t0) (a':=a) R) as [_ ->]; [|done|].
      { eapply story_elem; [exact Hl|]. rewrite El. constructor. } inversion S; congruence. }
  destruct (answer_now R H H0 Ht Hno) as (t1 & n & rs & H1 & Hn & Es & ->). rewrite Ha in H1, Hn. cbn [kind_of agg_call_of] in H1, Hn. cbn [calls] in Hn |- *.
  apply list_lookup_fmap_Some in Hn as (ev & Hn & [= Hcall ->]). destruct (reach_sequential R) as (Rc & _).
  destruct (creach_at _ Rc Hn) as (st0 & h1 & h2 & Eh & Hl & R1 & Hst). rewrite <- Hcall in Hst.
  pose proof (answers_latest Hclk _ R1 Hst) as A. cbn [check_res rs_status rs_reply] in *. rewrite <- Es in A. destruct A as (He & r' & ev' & Er & (h3 & h4 & -> & _ & Hlast) & q' & Hq' & Hsig).
  exists t1, n, (length h3), q', r', (check_res (cv_result ev')). split; [done|]. split; [rewrite <- Hl, app_length; cbn; lia|].
  split. { rewrite list_lookup_fmap, Eh, <- app_assoc. cbn [app]. rewrite list_lookup_middle by done. cbn. by rewrite Hq'. }
  split; [done|]. split; [by rewrite Er|]. intros n2 q'' rp'' rs'' Hi (ev2 & Hi2 & [= Hc2 _])%list_lookup_fmap_Some Hsig2.
  rewrite Eh, <- app_assoc in Hi2. cbn [app] in Hi2. rewrite lookup_app_r in Hi2 by lia. destruct (n2 - length h3)%nat as [|j] eqn:Ej; [lia|]. rewrite <- lookup_tail in Hi2. cbn [tail] in Hi2.
  rewrite app_length in Hl. cbn [length] in Hl. rewrite lookup_app_l in Hi2 by lia. rewrite Forall_forall in Hlast. apply (Hlast ev2); [by eapply elem_of_list_lookup_2|].
  exists rp'', q''. done.
Qed.
Lemma quota_latest ths w t c r t0 a q : proper_clock (clk KQuota) -> reach (ths, w) -> EDone t c SOk r ∈ w_trace w -> EStart t0 c a ∈ w_trace w ->
  ap_request a = RqQuota q -> (forall t1 m q, ETransport t1 m (FromCall c) q ∉ w_trace w) ->
  r = RpQuota empty_quota_response \/
  exists t1 n n' q' rp rs, EAgg t1 KQuota n (Some c) ∈ w_trace w /\ (n' < n)%nat /\
    calls KQuota (w_aggs w) !! n' = Some (OnQuota (QResponse q' rp), rs) /\ qsig md5 q' = qsig md5 q /\ r = RpQuota rp /\
    forall n2 q'' rp'' rs'', (n' < n2 < n)%nat -> calls KQuota (w_aggs w) !! n2 = Some (OnQuota (QResponse q'' rp''), rs'') -> qsig md5 q'' <> qsig md5 q.
Proof.
  intros Hclk R H H0 Ha Hno. destruct (has_transport cf a) eqn:Ht.
  2:{ destruct (answer R H) as (a' & l & S & Hl). destruct (settled_start S) as (t' & l' & El).
      destruct (start_unique (t:=t') (c:=c) (a:=a') (t':=t0) (a':=a) R) as [_ ->]; [|done|].
      { eapply story_elem; [exact Hl|]. rewrite El. constructor. } inversion S; congruence. }
  destruct (answer_now R H H0 Ht Hno) as (t1 & n & rs & H1 & Hn & Es & ->). rewrite Ha in H1, Hn. cbn [kind_of agg_call_of] in H1, Hn. cbn [calls] in Hn |- *.
  apply list_lookup_fmap_Some in Hn as (ev & Hn & [= Hcall ->]). destruct (reach_sequential R) as (_ & Rc & _).
  destruct (qreach_at _ Rc Hn) as (st0 & h1 & h2 & Eh & Hl & R1 & Hst). rewrite <- Hcall in Hst.
  cbn [quota_res rs_status rs_reply] in *.
  destruct (quota_told Hclk R1 Hst (eq_sym Es)) as [Er|(h3 & ev' & h4 & r' & -> & (q' & Hq' & Hsig) & Hlast & Er)]; rewrite Er; [by left|right].
  exists t1, n, (length h3), q', r', (quota_res (qv_result ev')). split; [done|]. split; [rewrite <- Hl, app_length; cbn; lia|].
  split. { rewrite list_lookup_fmap, Eh, <- app_assoc. cbn [app]. rewrite list_lookup_middle by done. cbn. by rewrite Hq'. }
  split; [done|]. split; [done|]. intros n2 q'' rp'' rs'' Hi (ev2 & Hi2 & [= Hc2 _])%list_lookup_fmap_Some Hsig2.
  rewrite Eh, <- app_assoc in Hi2. cbn [app] in Hi2. rewrite lookup_app_r in Hi2 by lia. destruct (n2 - length h3)%nat as [|j] eqn:Ej; [lia|]. rewrite <- lookup_tail in Hi2. cbn [tail] in Hi2.
  rewrite app_length in Hl. cbn [length] in Hl. rewrite lookup_app_l in Hi2 by lia. rewrite Forall_forall in Hlast. apply (Hlast ev2); [by eapply elem_of_list_lookup_2|].
  exists q'', rp''. done.
Qed.

(** Errors *)
Lemma error_told ths w l1 t c s r l2 t0 a : proper_clock (clk KQuota) -> reach (ths, w) -> w_trace w = l1 ++ EDone t c s r :: l2 ->
  EStart t0 c a ∈ l1 -> s <> SOk ->
  (exists t1 m t2 b, ETransport t1 m (FromCall c) (ap_request a) ∈ l1 /\ ECompleted t2 m s r b ∈ l1) \/
  (s = SInvalidArgument /\ r = RpNone /\ (forall t1 m q, ETransport t1 m (FromCall c) q ∉ l1) /\ (has_transport cf a = false \/ unusable cf (ap_request a))).
Proof.
  intros Hk2 R E H0 Hs. destruct (@answer_cases ths w l1 t c s r l2 t0 a R E H0) as [(_ & t1 & m & t2 & b & H1 & H2)|(Hno & [(Ht & -> & ->)|(_ & ths' & w' & n & rs & R' & E' & Hn & Hnf & -> & ->)])]; [by eauto 10| |].
  { right. auto. }
  right. destruct (ap_request a) as [q|q|q] eqn:Ea; cbn [kind_of agg_call_of calls] in Hn; apply list_lookup_fmap_Some in Hn as (ev & Hn & [= Hcall ->]);
    cbn [check_res quota_res report_res rs_status rs_reply] in *.
  - destruct (reach_sequential R') as (Rc & _ & _). destruct (creach_at _ Rc Hn) as (st0 & h1 & h2 & Eh & _ & R1 & Hst). rewrite <- Hcall in Hst.
    assert (cres_status (cv_result ev) = SInvalidArgument /\ cres_response (cv_result ev) = None /\ unusable cf (RqCheck q)) as (-> & -> & ?) by (eapply check_errors; eassumption). auto 10.
  - destruct (reach_sequential R') as (_ & Rc & _). destruct (qreach_at _ Rc Hn) as (st0 & h1 & h2 & Eh & _ & R1 & Hst). rewrite <- Hcall in Hst.
    assert (qres_status (qv_result ev) = SInvalidArgument /\ qres_response (qv_result ev) = None /\ unusable cf (RqQuota q)) as (-> & -> & ?) by (eapply quota_errors; eassumption). auto 10.
  - destruct (reach_sequential R') as (_ & _ & Rc). destruct (rreach_split _ Rc Hn) as (st0 & h1 & h2 & Eh & R1 & Hst). rewrite <- Hcall in Hst.
    assert (rres_status (rv_result ev) = SInvalidArgument /\ unusable cf (RqReport q)) as (-> & ?) by (eapply report_errors; eassumption). auto 10.
Qed.
End answers.
