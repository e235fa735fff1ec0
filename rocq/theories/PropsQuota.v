(** C48-C53: the quota aggregator.  The vocabulary is in QuotaAggSpec.v: a history is a list of finished calls with
    their results, [qreach] are the states and histories from construction on, [returns] says that a call returns and
    with what, [entry] is the cached object of a signature, and [stays] says that it is the same one in two states. *)
From Verif Require Import Base Proto Signature OpAgg OpAggSpec Lru LruSpec Timeout TimeoutProofs Agg QuotaAgg QuotaAggSpec QuotaAggClaims QuotaTerm QuotaAcct.
From stdpp Require Import gmap list.
Local Open Scope Z_scope.

(** ** Concrete runs, for the examples *)
Definition qk_fuel : nat := 40.
Fixpoint qk_play ord md5 clk cf (calls : list quota_call) (st : quota_agg) (h : list quota_event) : option (quota_agg * list quota_event) :=
  match calls with
  | [] => Some (st, h)
  | call :: calls =>
    match qstep true ord md5 clk cf qk_fuel call st with
    | Ok r => qk_play ord md5 clk cf calls r.1 (h ++ [QuotaEvent call r.2 (qreadings st) (qreadings r.1) r.1])
    | _ => None
    end
  end.
Definition qk_run ord md5 clk cf calls : option (quota_agg * list quota_event) :=
  match NewQuotaAggregator ord clk cf with Ok st => qk_play ord md5 clk cf calls st [] | _ => None end.
Lemma qk_reach ord md5 clk cf calls x : qk_run ord md5 clk cf calls = Some x -> qreach true ord md5 clk cf x.1 x.2.
Proof.
  unfold qk_run. destruct (NewQuotaAggregator ord clk cf) as [st| | |] eqn:E; try done.
  assert (qreach true ord md5 clk cf st []) as R by by constructor. revert R. generalize (@nil quota_event) as h. clear E. revert st.
  induction calls as [|call calls IH]; intros st h R; cbn [qk_play]; [by intros [= <-]|].
  destruct (qstep true ord md5 clk cf qk_fuel call st) as [[st' r]| | |] eqn:E; try done. apply IH. apply qreach_step; [done|]. by exists qk_fuel.
Qed.
(** A clock given by its first readings; it stays at the last one. *)
Definition qk_table (ts : list Z) (i : nat) : Z := nth i ts (List.last ts 0).
Lemma qk_sorted ts : StronglySorted Z.le ts -> Forall (fun t => 0 <= t) ts -> proper_clock (qk_table ts).
Proof.
  intros S F. assert (L : Forall (fun t => t <= List.last ts 0) ts).
  { clear F. induction S as [|x ts S IH F]; [constructor|]. destruct ts as [|y ts]; [repeat constructor; cbn; lia|].
    change (List.last (x :: y :: ts) 0) with (List.last (y :: ts) 0). constructor; [|done]. apply Forall_inv in IH. apply Forall_inv in F. lia. }
  assert (L0 : 0 <= List.last ts 0). { destruct ts as [|x ts]; [done|]. apply Forall_inv in F. apply Forall_inv in L. lia. }
  unfold qk_table. assert (N : forall i, nth i ts (List.last ts 0) <= List.last ts 0).
  { intros i. destruct (nth_in_or_default i ts (List.last ts 0)) as [Hn|Hn]; [|lia]. rewrite Forall_forall in L. apply L. by apply elem_of_list_In. }
  split.
  - assert (G : forall z i j, Forall (fun t => t <= z) ts -> (i <= j)%nat -> nth i ts z <= nth j ts z); [|auto]. clear -S. intros z.
    induction S as [|x ts S IH F]; intros i j L H; [by destruct i, j|].
    apply Forall_cons in L as [L1 L2]. destruct i as [|i], j as [|j]; cbn; try lia; [|apply IH; [done|lia]].
    destruct (nth_in_or_default j ts z) as [Hn|Hn]; [|lia]. rewrite Forall_forall in F. apply F. by apply elem_of_list_In.
  - intros i. destruct (nth_in_or_default i ts (List.last ts 0)) as [Hn|Hn]; [|lia]. rewrite Forall_forall in F. apply F. by apply elem_of_list_In.
Qed.
Definition qk_default_options : quota_options := QuotaOptions 10000 1000 600000.
Definition qk_cf (opts : quota_options) : quota_config := QuotaConfig "svc" "cfg" opts.
Definition qk_req (id name : string) (n : Z) : quota_request :=
  QuotaRequest "svc" (Some (QuotaOperation id name "c" ∅ [MetricValueSet "m" [MetricValue ∅ None None (VInt64 n)]] 3)) "".
Definition qk_ok : quota_response := QuotaResponse [] "ok".
Definition qk_no : quota_response := QuotaResponse ["exhausted"]%string "".
Definition qk_md5 (s : string) : string := s.
(** The default options: refresh after 1 s, expiration after 600 s.  Quota for "a" is asked for four times, the server
    answers three times (the third time nobody asked it), and there is a flush at the end. *)
Definition qk_clk : nat -> Z := qk_table (replicate 7 0 ++ replicate 5 2000000 ++ replicate 6 4000000 ++ replicate 4 6000000 ++ [700000000]).
Lemma qk_clock : proper_clock qk_clk.
Proof. apply qk_sorted; repeat constructor; cbn; lia. Qed.
Definition qk_state (opts : quota_options) (calls : list quota_call) : quota_agg :=
  match qk_run default_order qk_md5 qk_clk (qk_cf opts) calls with Some x => x.1 | None => QuotaAgg None (Pool ∅ 0%nat []) false end.
Definition qk_hist (opts : quota_options) (calls : list quota_call) : list quota_event :=
  match qk_run default_order qk_md5 qk_clk (qk_cf opts) calls with Some x => x.2 | None => [] end.
Lemma qk_reaches opts calls : qk_run default_order qk_md5 qk_clk (qk_cf opts) calls <> None ->
  qreach true default_order qk_md5 qk_clk (qk_cf opts) (qk_state opts calls) (qk_hist opts calls).
Proof. intros H. unfold qk_state, qk_hist. destruct (qk_run _ _ _ _ _) as [x|] eqn:E; [|done]. by apply (qk_reach _ _ _ _ _ _ E). Qed.
Ltac qreaches := apply qk_reaches; vm_compute; discriminate.
Notation qk_st := (qk_state qk_default_options).
Notation qk_h := (qk_hist qk_default_options).
Notation qk_qreach := (qreach true default_order qk_md5 qk_clk (qk_cf qk_default_options)).
Notation qk_returns := (returns true default_order qk_md5 qk_clk (qk_cf qk_default_options)).
Definition qk_a (id : string) (n : Z) : quota_request := qk_req id "a" n.
Definition qk_calls : list quota_call :=
  [QQuota (qk_a "1" 1); QResponse (qk_a "1" 1) qk_ok; QQuota (qk_a "2" 2); QQuota (qk_a "3" 3); QResponse (qk_a "1" 1) qk_ok;
   QResponse (qk_a "1" 1) qk_ok; QQuota (qk_a "4" 4); QFlushC].
Definition qk_sig : string := qsig qk_md5 (qk_a "1" 1).
Definition qk_no_event : quota_event := QuotaEvent QFlushC (QuotaResult SOk None []) 0 0 (QuotaAgg None (Pool ∅ 0%nat []) false).
Definition qk_ev (calls : list quota_call) (n : nat) : quota_event := nth n (qk_h calls) qk_no_event.
(** An answer with errors; a refresh two seconds later. *)
Definition qk_denied : list quota_call :=
  [QQuota (qk_a "1" 1); QResponse (qk_a "1" 1) qk_no; QQuota (qk_a "2" 2); QQuota (qk_a "3" 3); QFlushC].
(** FlushAll on the empty cache, then ordinary use; the flush comes two seconds after the request. *)
Definition qk_flag : list quota_call := [QFlushAllC; QQuota (qk_a "1" 1); QResponse (qk_a "1" 1) qk_ok; QQuota (qk_a "2" 2); QFlushC].
Definition qk_apart (qs : list quota_request) : bool :=
  forallb (fun q1 => forallb (fun q2 => negb (String.eqb (qsig qk_md5 q1) (qsig qk_md5 q2)) || bool_decide (about q1 = about q2)) qs) qs.
Definition qk_asks (h : list quota_event) : list quota_request := h ≫= fun ev => match qv_call ev with QQuota q => [q] | _ => [] end.
Lemma qk_told h : qk_apart (qk_asks h) = true -> told_apart qk_md5 h.
Proof.
  intros H ev1 ev2 q1 q2 H1 H2 E1 E2 Hs.
  assert (q1 ∈ qk_asks h) as I1 by (apply elem_of_list_bind; exists ev1; rewrite E1; split; [constructor|done]).
  assert (q2 ∈ qk_asks h) as I2 by (apply elem_of_list_bind; exists ev2; rewrite E2; split; [constructor|done]).
  pose proof H as H'. unfold qk_apart in H'.
  rewrite forallb_forall in H'. specialize (H' q1 ltac:(by apply elem_of_list_In)). cbn beta in H'. rewrite forallb_forall in H'. specialize (H' q2 ltac:(by apply elem_of_list_In)).
  cbn beta in H'. rewrite Hs, String.eqb_refl in H'. by apply bool_decide_eq_true in H'.
Qed.

(** ** C48 *)
Theorem C48_first_request : forall debug ord md5 clk cf, proper_clock clk -> forall st h q st' res,
  0 < qp_entries (qf_options cf) -> qreach debug ord md5 clk cf st h -> returns debug ord md5 clk cf (QQuota q) st (st', res) -> well_addressed cf q ->
  qres_status res = SOk /\ qcached st' (qsig md5 q) /\
  (~ stays st st' (qsig md5 q) ->
     qres_response res = Some empty_quota_response /\ granted_by empty_quota_response /\
     exists others, qres_flushed res = others ++ [q] /\ (told_apart md5 h -> Forall (fun it => qsig md5 it <> qsig md5 q) others)).
Proof. intros debug ord md5 clk cf Hclk st h q st' res Hm Hr Hs Hw. destruct (first_quota Hclk Hm Hr Hs Hw) as (H1 & H2 & H3). split; [done|]. split; [done|]. intros H. destruct (H3 H) as [H4 H5]. done. Qed.
Print Assumptions C48_first_request.
(** A request for another service or without an operation is an error and has no effect. *)
Theorem C48_malformed_rejected : forall debug ord md5 clk cf q st fuel, ~ well_addressed cf q ->
  qstep debug ord md5 clk cf fuel (QQuota q) st = Ok (st, QuotaResult SInvalidArgument None []).
Proof. intros. by apply QuotaMove.not_addressed. Qed.
Print Assumptions C48_malformed_rejected.
(** In one call no two requests of the same signature are handed out. *)
Theorem C48_handed_out_once : forall debug ord md5 clk cf, proper_clock clk -> forall st h call st' res,
  qreach debug ord md5 clk cf st h -> told_apart md5 h -> returns debug ord md5 clk cf call st (st', res) -> NoDup (qsig md5 <$> qres_flushed res).
Proof. exact handed_out_once. Qed.
Print Assumptions C48_handed_out_once.
Example C48_example : qk_qreach (qk_st (take 3 qk_calls)) (qk_h (take 3 qk_calls)) /\ told_apart qk_md5 (qk_h (take 3 qk_calls)) /\
  (exists r, qk_returns (QQuota (qk_req "9" "b" 5)) (qk_st (take 3 qk_calls)) r /\ ~ stays (qk_st (take 3 qk_calls)) r.1 (qsig qk_md5 (qk_req "9" "b" 5)) /\
     length (qres_flushed r.2) = 2%nat) /\
  exists r, qk_returns (QQuota (qk_a "9" 5)) (qk_st (take 3 qk_calls)) r /\ stays (qk_st (take 3 qk_calls)) r.1 qk_sig.
Proof.
  split; [qreaches|]. split; [apply qk_told; vm_compute; reflexivity|]. split.
  - eexists. split; [exists qk_fuel; vm_compute; reflexivity|]. split; [|vm_compute; reflexivity]. intros [H _]. apply H. vm_compute. reflexivity.
  - eexists. split; [exists qk_fuel; vm_compute; reflexivity|]. split; vm_compute; [discriminate|reflexivity].
Qed.

(** ** C49 *)
(** Two requests for a key handed out while its entry stays in the cache: unless an answer came in the call that
    handed out the first one, one came after it. *)
Theorem C49_refresh_answered_partial : forall debug ord md5 clk cf, proper_clock clk -> forall st h1 ev1 h2 call st' res k,
  qreach debug ord md5 clk cf st (h1 ++ ev1 :: h2) -> told_apart md5 (h1 ++ ev1 :: h2) -> returns debug ord md5 clk cf call st (st', res) ->
  hands_out md5 k ev1 -> Exists (fun q => qsig md5 q = k) (qres_flushed res) -> stays (qv_after ev1) st' k ->
  Exists (responds md5 k) (ev1 :: h2).
Proof. exact refresh_answered. Qed.
Print Assumptions C49_refresh_answered_partial.
(** If every answer follows an unanswered request, an answer comes after the first request. *)
Theorem C49_one_refresh_partial : forall debug ord md5 clk cf, proper_clock clk -> forall st h1 ev1 h2 call st' res k,
  qreach debug ord md5 clk cf st (h1 ++ ev1 :: h2) -> told_apart md5 (h1 ++ ev1 :: h2) -> solicited md5 k (h1 ++ ev1 :: h2) ->
  returns debug ord md5 clk cf call st (st', res) ->
  hands_out md5 k ev1 -> Exists (fun q => qsig md5 q = k) (qres_flushed res) -> stays (qv_after ev1) st' k ->
  Exists (responds md5 k) h2.
Proof. exact refresh_answered_strict. Qed.
Print Assumptions C49_one_refresh_partial.
(** Without that assumption it is not so: an answer nobody asked for can hand out a refresh and mark it answered. *)
Theorem C49_one_refresh_refuted : exists clk cf st h1 ev1 h2 st' res k, proper_clock clk /\
  qreach true default_order qk_md5 clk cf st (h1 ++ ev1 :: h2) /\ told_apart qk_md5 (h1 ++ ev1 :: h2) /\
  returns true default_order qk_md5 clk cf QFlushC st (st', res) /\ hands_out qk_md5 k ev1 /\ Exists (fun q => qsig qk_md5 q = k) (qres_flushed res) /\
  stays (qv_after ev1) st' k /\ ~ Exists (responds qk_md5 k) h2.
Proof.
  exists qk_clk, (qk_cf qk_default_options), (qk_st (take 7 qk_calls)), (take 5 (qk_h qk_calls)), (qk_ev qk_calls 5), [qk_ev qk_calls 6], (qk_st qk_calls), (qv_result (qk_ev qk_calls 7)), qk_sig.
  assert (take 5 (qk_h qk_calls) ++ [qk_ev qk_calls 5; qk_ev qk_calls 6] = qk_h (take 7 qk_calls)) as -> by (vm_compute; reflexivity).
  split; [exact qk_clock|]. split; [qreaches|]. split; [apply qk_told; vm_compute; reflexivity|]. split; [exists qk_fuel; vm_compute; reflexivity|].
  split; [unfold hands_out; vm_compute; by constructor|]. split; [vm_compute; by constructor|]. split; [split; vm_compute; [discriminate|reflexivity]|].
  intros H. apply Exists_cons in H as [H|H%Exists_nil]; [|done]. destruct H as (q & r & H & _). vm_compute in H. discriminate.
Qed.
Print Assumptions C49_one_refresh_refuted.
Lemma qk_snoc {A} (l1 : list A) a l2 b (m : list A) : l1 ++ a :: l2 = m ++ [b] -> (l2 = [] /\ l1 = m /\ a = b) \/ exists l3, l2 = l3 ++ [b] /\ m = l1 ++ a :: l3.
Proof.
  destruct l2 as [|z l2 _] using rev_ind; intros E.
  - apply app_inj_tail in E as [-> ->]. by left.
  - rewrite app_comm_cons, app_assoc in E. apply app_inj_tail in E as [<- ->]. right. by exists l2.
Qed.
Example C49_example : qk_qreach (qk_st (take 5 qk_calls)) ([] ++ qk_ev qk_calls 0 :: [qk_ev qk_calls 1; qk_ev qk_calls 2; qk_ev qk_calls 3; qk_ev qk_calls 4]) /\
  solicited qk_md5 qk_sig (take 5 (qk_h qk_calls)) /\
  hands_out qk_md5 qk_sig (qk_ev qk_calls 0) /\ exists r, qk_returns (QQuota (qk_a "9" 5)) (qk_st (take 5 qk_calls)) r /\ stays (qv_after (qk_ev qk_calls 0)) r.1 qk_sig /\
    Exists (fun q => qsig qk_md5 q = qk_sig) (qres_flushed r.2).
Proof.
  assert ([] ++ [qk_ev qk_calls 0; qk_ev qk_calls 1; qk_ev qk_calls 2; qk_ev qk_calls 3; qk_ev qk_calls 4] = qk_h (take 5 qk_calls)) as -> by (vm_compute; reflexivity).
  split; [qreaches|]. split.
  { assert (take 5 (qk_h qk_calls) = [qk_ev qk_calls 0; qk_ev qk_calls 1; qk_ev qk_calls 2; qk_ev qk_calls 3; qk_ev qk_calls 4]) as -> by (vm_compute; reflexivity).
    assert (forall i, hands_out qk_md5 qk_sig (qk_ev qk_calls i) \/ True) as _ by auto.
    assert (N : forall i, i = 0%nat \/ i = 2%nat \/ i = 3%nat -> ~ responds qk_md5 qk_sig (qk_ev qk_calls i)).
    { intros i Hi (q & r & H & _). destruct Hi as [->|[->| ->]]; vm_compute in H; discriminate. }
    assert (H0 : hands_out qk_md5 qk_sig (qk_ev qk_calls 0)) by (unfold hands_out; vm_compute; by constructor).
    assert (H3 : hands_out qk_md5 qk_sig (qk_ev qk_calls 3)) by (unfold hands_out; vm_compute; by constructor).
    intros h1 ev h2 E R. apply symmetry in E.
    change ([qk_ev qk_calls 0; qk_ev qk_calls 1; qk_ev qk_calls 2; qk_ev qk_calls 3; qk_ev qk_calls 4]) with ([qk_ev qk_calls 0; qk_ev qk_calls 1; qk_ev qk_calls 2; qk_ev qk_calls 3] ++ [qk_ev qk_calls 4]) in E.
    apply qk_snoc in E as [(-> & -> & ->)|(h3 & -> & E)].
    { exists [qk_ev qk_calls 0; qk_ev qk_calls 1; qk_ev qk_calls 2], (qk_ev qk_calls 3), []. split; [reflexivity|]. split; [done|constructor]. }
    symmetry in E. change ([qk_ev qk_calls 0; qk_ev qk_calls 1; qk_ev qk_calls 2; qk_ev qk_calls 3]) with ([qk_ev qk_calls 0; qk_ev qk_calls 1; qk_ev qk_calls 2] ++ [qk_ev qk_calls 3]) in E.
    apply qk_snoc in E as [(-> & -> & ->)|(h4 & -> & E)]; [by apply N in R; auto|].
    symmetry in E. change ([qk_ev qk_calls 0; qk_ev qk_calls 1; qk_ev qk_calls 2]) with ([qk_ev qk_calls 0; qk_ev qk_calls 1] ++ [qk_ev qk_calls 2]) in E.
    apply qk_snoc in E as [(-> & -> & ->)|(h5 & -> & E)]; [by apply N in R; auto|].
    symmetry in E. change ([qk_ev qk_calls 0; qk_ev qk_calls 1]) with ([qk_ev qk_calls 0] ++ [qk_ev qk_calls 1]) in E.
    apply qk_snoc in E as [(-> & -> & ->)|(h6 & -> & E)]; [exists [], (qk_ev qk_calls 0), []; split; [reflexivity|]; split; [done|constructor]|].
    symmetry in E. change ([qk_ev qk_calls 0]) with ([] ++ [qk_ev qk_calls 0]) in E.
    apply qk_snoc in E as [(-> & -> & ->)|(h7 & -> & E)]; [by apply N in R; auto|]. by destruct h1. }
  split; [unfold hands_out; vm_compute; by constructor|].
  eexists. split; [exists qk_fuel; vm_compute; reflexivity|]. split; [split; vm_compute; [discriminate|reflexivity]|vm_compute; by constructor].
Qed.

(** ** C50 *)
(** While the entry stays cached, the most recent answer stored for it is what Quota returns. *)
Theorem C50_answer_enforced : forall debug ord md5 clk cf, proper_clock clk -> forall st h1 ev1 h2 q st' res r,
  qreach debug ord md5 clk cf st (h1 ++ ev1 :: h2) -> responds_with md5 (qsig md5 q) r ev1 -> Forall (fun ev => ~ responds md5 (qsig md5 q) ev) h2 ->
  returns debug ord md5 clk cf (QQuota q) st (st', res) -> well_addressed cf q -> stays (qv_after ev1) st' (qsig md5 q) ->
  qres_status res = SOk /\ qres_response res = Some r.
Proof. exact answers_cached. Qed.
Print Assumptions C50_answer_enforced.
(** A request handed out for a denied entry is a refresh made by a Quota call for it, in NORMAL mode. *)
Theorem C50_denied_refresh_normal : forall debug ord md5 clk cf, proper_clock clk -> forall st h1 ev1 h2 call st' res k r it,
  qreach debug ord md5 clk cf st (h1 ++ ev1 :: h2) -> told_apart md5 (h1 ++ ev1 :: h2) -> responds_with md5 k r ev1 -> qs_errors r <> [] ->
  Forall (fun ev => ~ responds md5 k ev) h2 -> returns debug ord md5 clk cf call st (st', res) -> stays (qv_after ev1) st' k ->
  it ∈ qres_flushed res -> qsig md5 it = k ->
  (exists q, call = QQuota q /\ qsig md5 q = k) /\ qo_mode (qop_get (qr_operation it)) = QUOTA_NORMAL.
Proof. exact denied_mode. Qed.
Print Assumptions C50_denied_refresh_normal.
Example C50_example : qk_qreach (qk_st (take 3 qk_denied)) (take 1 (qk_h qk_denied) ++ qk_ev qk_denied 1 :: [qk_ev qk_denied 2]) /\
  responds_with qk_md5 qk_sig qk_no (qk_ev qk_denied 1) /\ Forall (fun ev => ~ responds qk_md5 qk_sig ev) [qk_ev qk_denied 2] /\
  qk_returns (QQuota (qk_a "3" 3)) (qk_st (take 3 qk_denied)) (qk_st (take 4 qk_denied), qv_result (qk_ev qk_denied 3)) /\
  stays (qv_after (qk_ev qk_denied 1)) (qk_st (take 4 qk_denied)) qk_sig /\
  qres_response (qv_result (qk_ev qk_denied 3)) = Some qk_no /\ exists it, qres_flushed (qv_result (qk_ev qk_denied 3)) = [it] /\ qsig qk_md5 it = qk_sig /\ qo_mode (qop_get (qr_operation it)) = 1.
Proof.
  assert (take 1 (qk_h qk_denied) ++ qk_ev qk_denied 1 :: [qk_ev qk_denied 2] = qk_h (take 3 qk_denied)) as -> by (vm_compute; reflexivity).
  split; [qreaches|]. split; [exists (qk_a "1" 1); split; vm_compute; reflexivity|]. split.
  { repeat constructor. intros (q & r & H & _). vm_compute in H. discriminate. }
  split; [exists qk_fuel; vm_compute; reflexivity|]. split; [split; vm_compute; [discriminate|reflexivity]|]. split; [vm_compute; reflexivity|].
  eexists. split; [vm_compute; reflexivity|]. split; vm_compute; reflexivity.
Qed.

(** ** C51 *)
(** Operations answered positively are, each in exactly one place: in a request handed out (alone or merged with
    others), in what a cached entry has accumulated, or lost; nothing is lost as long as no entry leaves the cache and
    no answer with errors is stored.  Other requests handed out repeat an earlier request. *)
Theorem C51_balance_partial : forall debug ord md5 clk cf, proper_clock clk -> forall st h, qreach debug ord md5 clk cf st h ->
  exists groups sent resent held kept lost,
    qflushed h ≡ₚ sent ++ resent /\ Forall2 (charges debug ord cf) groups sent /\ Forall (repeats h) resent /\
    accumulated ord st ≡ₚ kept /\ Forall2 (adds_up debug ord) held kept /\
    granted h ≡ₚ concat groups ++ concat held ++ lost /\
    (nothing_leaves h -> never_denied h -> lost = []).
Proof. exact balance. Qed.
Print Assumptions C51_balance_partial.
(** The same for the amounts of a metric. *)
Theorem C51_tokens_partial : forall debug ord md5 clk cf, proper_clock clk -> forall st h, qreach debug ord md5 clk cf st h ->
  Forall simple_quota (asked h) -> exists resent lost,
    Forall (repeats h) resent /\ resent ⊆ qflushed h /\ lost ⊆ granted h /\ (nothing_leaves h -> never_denied h -> lost = []) /\
    forall name, tokens name (granted h) + tokens name (qop_get ∘ qr_operation <$> resent) =
      tokens name (qop_get ∘ qr_operation <$> qflushed h) + tokens name (accumulated ord st) + tokens name lost.
Proof. exact balance_tokens. Qed.
Print Assumptions C51_tokens_partial.
Lemma qk_simple calls h : qv_call <$> h = calls ->
  Forall (fun c => match c with QQuota q => exists id name n, q = qk_req id name n | _ => True end) calls -> Forall simple_quota (asked h).
Proof.
  intros <- F. apply Forall_forall. intros o (ev & Ho & Hev)%elem_of_list_bind. rewrite Forall_fmap, Forall_forall in F. specialize (F ev Hev). cbn in F.
  destruct (qv_call ev) as [q| | |]; [|by apply elem_of_nil in Ho..]. destruct F as (id & name & n & ->). apply elem_of_list_singleton in Ho as ->.
  intros s Hs. apply elem_of_list_singleton in Hs as ->. by eexists _, n.
Qed.
Ltac simple_calls := eapply qk_simple; [vm_compute; reflexivity|]; repeat (apply Forall_cons_2; [first [exact I|eexists _, _, _; reflexivity]|]); apply Forall_nil_2.
Notation qk_sent h := (tokens "m" (qop_get ∘ qr_operation <$> qflushed h)).
Notation qk_kept st := (tokens "m" (accumulated default_order st)).
(** Tokens get lost: FlushAll drops what was accumulated, and so does an answer with errors. *)
Theorem C51_tokens_lost_refuted : exists clk cf, proper_clock clk /\ forall call, call = QFlushAllC \/ call = QResponse (qk_a "1" 1) qk_no ->
  exists st h, qreach true default_order qk_md5 clk cf st h /\ Forall simple_quota (asked h) /\ last (qv_call <$> h) = Some call /\
    qk_sent h + qk_kept st < tokens "m" (granted h).
Proof.
  exists qk_clk, (qk_cf qk_default_options). split; [exact qk_clock|]. intros call Hc.
  exists (qk_st [QQuota (qk_a "1" 1); QQuota (qk_a "2" 2); call]), (qk_h [QQuota (qk_a "1" 1); QQuota (qk_a "2" 2); call]).
  destruct Hc as [->| ->]; (split; [qreaches|]; split; [simple_calls|]; split; vm_compute; reflexivity).
Qed.
Print Assumptions C51_tokens_lost_refuted.
(** Tokens are charged twice: the refresh of an entry that has accumulated nothing repeats its first request. *)
Theorem C51_charged_twice_refuted : exists clk cf st h, proper_clock clk /\ qreach true default_order qk_md5 clk cf st h /\ Forall simple_quota (asked h) /\
  tokens "m" (granted h) < qk_sent h + qk_kept st.
Proof.
  exists (qk_table (replicate 5 0 ++ [2000000])), (qk_cf qk_default_options).
  set (calls := [QQuota (qk_a "1" 1); QResponse (qk_a "1" 1) qk_ok; QQuota (qk_a "2" 2)]).
  destruct (qk_run default_order qk_md5 (qk_table (replicate 5 0 ++ [2000000])) (qk_cf qk_default_options) calls) as [x|] eqn:E; [|by vm_compute in E].
  exists x.1, x.2. split; [apply qk_sorted; repeat constructor; cbn; lia|]. split; [by apply (qk_reach _ _ _ _ _ _ E)|].
  apply (f_equal (fun o => match o with Some y => y | None => x end)) in E. rewrite <- E. clear E.
  split; [simple_calls|]. vm_compute. reflexivity.
Qed.
Print Assumptions C51_charged_twice_refuted.
Ltac one_entry i := apply Forall_cons_2; [eexists _, i; split; [vm_compute; reflexivity|]; split; [apply (bool_decide_unpack _); vm_compute; exact I|vm_compute; reflexivity]|].
Lemma one_kept k0 a h : Forall (fun ev => exists c id, qg_cache (qv_after ev) = Some c /\ l_table c = {[k0 := id]} /\ e_value <$> (l_heap c !! id) = Some a) h -> nothing_leaves h.
Proof.
  intros F. assert (forall ev, ev ∈ h -> forall k, entry (qv_after ev) k = if decide (k = k0) then Some a else None) as Hk.
  { intros ev Hev k. rewrite Forall_forall in F. destruct (F ev Hev) as (c & id & E1 & E2 & E3). unfold entry. rewrite E1, E2. destruct (decide (k = k0)) as [->|Hn].
    - rewrite lookup_singleton. destruct (l_heap c !! id); [|done]. by injection E3 as ->.
    - by rewrite lookup_singleton_ne. }
  intros h1 ev1 ev2 h2 k E Hc. split; [done|]. rewrite (Hk ev1), (Hk ev2); [done|rewrite E; set_solver..].
Qed.
Lemma qk_granting calls h : qv_call <$> h = calls -> Forall (fun c => match c with QResponse _ r => qs_errors r = [] | _ => True end) calls -> never_denied h.
Proof. intros <- F ev q r Hev E. rewrite Forall_fmap, Forall_forall in F. specialize (F ev Hev). cbn in F. by rewrite E in F. Qed.
Example C51_example : qk_qreach (qk_st (take 7 qk_calls)) (qk_h (take 7 qk_calls)) /\ Forall simple_quota (asked (qk_h (take 7 qk_calls))) /\
  nothing_leaves (qk_h (take 7 qk_calls)) /\ never_denied (qk_h (take 7 qk_calls)) /\
  tokens "m" (granted (qk_h (take 7 qk_calls))) = 10 /\ qk_sent (qk_h (take 7 qk_calls)) = 6 /\ qk_kept (qk_st (take 7 qk_calls)) = 4.
Proof.
  split; [qreaches|]. split; [simple_calls|]. split.
  { apply (one_kept qk_sig 0%nat). assert (qk_h (take 7 qk_calls) = qk_ev qk_calls <$> seq 0 7) as -> by (vm_compute; reflexivity). cbn [seq fmap list_fmap].
    one_entry 0%nat. one_entry 0%nat. one_entry 0%nat. one_entry 1%nat. one_entry 1%nat. one_entry 2%nat. one_entry 2%nat. apply Forall_nil_2. }
  split. { eapply qk_granting; [vm_compute; reflexivity|]. repeat (apply Forall_cons_2; [first [exact I|reflexivity]|]); apply Forall_nil_2. }
  split; [vm_compute; reflexivity|]. split; vm_compute; reflexivity.
Qed.

(** ** C52 *)
(** Quota never returns: a full cache, no entry stale, a new signature, as long as the clock stands still. *)
Theorem C52_quota_terminates_refuted : exists clk cf st h q, proper_clock clk /\ 0 < qp_entries (qf_options cf) /\
  qreach true default_order qk_md5 clk cf st h /\ well_addressed cf q /\ Forall simple_quota (asked h) /\
  runs_forever true default_order qk_md5 clk cf (QQuota q) st.
Proof.
  set (cf := qk_cf (QuotaOptions 1 1000 600000)). set (clk := qk_table [0]). assert (proper_clock clk) as Hc by (apply qk_sorted; repeat constructor; lia).
  destruct (qk_run default_order qk_md5 clk cf [QQuota (qk_a "1" 1)]) as [x|] eqn:E; [|by vm_compute in E].
  pose proof (qk_reach _ _ _ _ _ _ E) as R. apply (f_equal (fun o => match o with Some y => y | None => x end)) in E. rewrite <- E in R. clear E.
  exists clk, cf. eexists _, _, (qk_req "2" "b" 1). split; [done|]. split; [done|]. split; [exact R|]. split; [done|].
  split; [simple_calls|].
  intros n. eapply full_spins; [exact Hc|exact R|vm_compute; repeat constructor; discriminate|done|vm_compute; reflexivity|done|intros H; apply H; vm_compute; reflexivity|].
  intros k t i Hl Hi. assert (clk i = 0) as -> by (destruct i as [|[]]; reflexivity). assert (t = 0) as ->; [|vm_compute; reflexivity].
  apply fmap_Some in Hl as (e & Hl & ->). unfold recorded in Hl. destruct (entry _ k); [|done].
  match type of Hl with p_vals (qg_pool ?s) !! _ = _ => assert (map_Forall (fun _ e => qe_last e = 0) (p_vals (qg_pool s))) as M by (apply (bool_decide_unpack _); vm_compute; exact I) end.
  by apply M in Hl.
Qed.
Print Assumptions C52_quota_terminates_refuted.
(** More generally: the cache is full, FlushAll has not been called, the signature is new and no entry becomes stale
    within the readings of the clock that the call makes. *)
Theorem C52_full_cache_recurses_refuted : forall debug ord md5 clk cf, proper_clock clk -> forall st h q,
  qreach debug ord md5 clk cf st h -> Forall (fun ev => qv_call ev <> QFlushAllC) h -> 0 < qp_entries (qf_options cf) ->
  Z.of_nat (qsize st) = qp_entries (qf_options cf) -> well_addressed cf q -> ~ qcached st (qsig md5 q) ->
  (forall k t i, last_refresh st k = Some t -> clk i - t < expiration_interval_in_cycle cf) ->
  runs_forever debug ord md5 clk cf (QQuota q) st.
Proof. intros debug ord md5 clk cf Hclk st h q H1 H2 H3 H4 H5 H6 H7 n. eapply full_spins; eauto. Qed.
Print Assumptions C52_full_cache_recurses_refuted.
(** Not even if entries become stale later on: it is enough that none is within the first readings of the call. *)
Theorem C52_full_cache_never_returns_refuted : forall debug ord md5 clk cf, proper_clock clk -> forall st h q,
  qreach debug ord md5 clk cf st h -> Forall (fun ev => qv_call ev <> QFlushAllC) h -> 0 < qp_entries (qf_options cf) ->
  Z.of_nat (qsize st) = qp_entries (qf_options cf) -> well_addressed cf q -> ~ qcached st (qsig md5 q) ->
  (forall k t i, last_refresh st k = Some t -> (qreadings st <= i < qreadings st + (5 * qsize st + 20))%nat -> clk i - t < expiration_interval_in_cycle cf) ->
  forall r, ~ returns debug ord md5 clk cf (QQuota q) st r.
Proof. intros * Hclk * H1 H2 H3 H4 H5 H6 H7 r [n E]. by eapply full_never. Qed.
Print Assumptions C52_full_cache_never_returns_refuted.
(** What happens then is undefined: the entry that has become stale is deleted while the calls that put it back, further
    up the stack, go on using it. *)
Theorem C52_use_after_free_refuted : exists clk cf st h q depth, proper_clock clk /\ 0 < qp_entries (qf_options cf) /\
  qreach true default_order qk_md5 clk cf st h /\ well_addressed cf q /\ Forall simple_quota (asked h) /\
  qstep true default_order qk_md5 clk cf depth (QQuota q) st = UB UseAfterFree.
Proof.
  set (cf := qk_cf (QuotaOptions 1 1000 1000)). set (clk := qk_table (replicate 8 0 ++ [2000000])).
  assert (proper_clock clk) as Hc by (apply qk_sorted; repeat constructor; cbn; lia).
  destruct (qk_run default_order qk_md5 clk cf [QQuota (qk_a "1" 1)]) as [x|] eqn:E; [|by vm_compute in E].
  pose proof (qk_reach _ _ _ _ _ _ E) as R. apply (f_equal (fun o => match o with Some y => y | None => x end)) in E. rewrite <- E in R. clear E.
  exists clk, cf. eexists _, _, (qk_req "2" "b" 1), 12%nat. split; [done|]. split; [done|]. split; [exact R|]. split; [done|].
  split; [simple_calls|]. vm_compute. reflexivity.
Qed.
Print Assumptions C52_use_after_free_refuted.
(** Otherwise Quota returns, unless some of the operations asked for cannot be merged without undefined behaviour. *)
Theorem C52_quota_returns_partial : forall debug ord md5 clk cf, proper_clock clk -> forall st h q,
  qreach debug ord md5 clk cf st h -> (well_addressed cf q -> 0 < qp_entries (qf_options cf) -> room md5 clk cf st h q) ->
  (exists r, returns debug ord md5 clk cf (QQuota q) st r) \/
  (exists first rest, (first :: rest) `sublist_of` asked h ++ [qop_get (qr_operation q)] /\ forall o, quota_aggregate debug ord first rest <> Ok o).
Proof. exact quota_returns. Qed.
Print Assumptions C52_quota_returns_partial.
(** CacheResponse, Flush and FlushAll always return. *)
Theorem C52_other_calls_return : forall debug ord md5 clk cf, proper_clock clk -> forall st h call,
  qreach debug ord md5 clk cf st h -> (forall q, call <> QQuota q) -> exists r, returns debug ord md5 clk cf call st r.
Proof. exact other_calls. Qed.
Print Assumptions C52_other_calls_return.
Theorem C52_construction_completes : forall debug ord md5 clk cf, int32_min <= qp_refresh_ms (qf_options cf) <= int32_max ->
  exists st, qreach debug ord md5 clk cf st [].
Proof. exact new_returns. Qed.
Print Assumptions C52_construction_completes.
(** Destruction completes without leaving an entry behind. *)
Theorem C52_destruction_completes : forall debug ord md5 clk cf, proper_clock clk -> forall st h,
  qreach debug ord md5 clk cf st h -> exists n, DestroyQuotaAggregator ord clk cf n st = Ok tt.
Proof. exact destroy_returns. Qed.
Print Assumptions C52_destruction_completes.
Example C52_example : qk_qreach (qk_st (take 7 qk_calls)) (qk_h (take 7 qk_calls)) /\
  room qk_md5 qk_clk (qk_cf qk_default_options) (qk_st (take 7 qk_calls)) (qk_h (take 7 qk_calls)) (qk_req "9" "b" 5) /\
  ~ qcached (qk_st (take 7 qk_calls)) (qsig qk_md5 (qk_req "9" "b" 5)) /\ qsize (qk_st (take 7 qk_calls)) = 1%nat.
Proof. split; [qreaches|]. split; [right; left; vm_compute; reflexivity|]. split; [intros H; apply H; vm_compute; reflexivity|vm_compute; reflexivity]. Qed.

(** ** C53 *)
(** Flush drops an entry that is due and has not been refreshed for the expiration interval. *)
Theorem C53_flush_drops : forall debug ord md5 clk cf, proper_clock clk -> forall st h st' res n k t t',
  qreach debug ord md5 clk cf st h -> returns debug ord md5 clk cf QFlushC st (st', res) -> cycles_of_ms (qp_refresh_ms (qf_options cf)) = Ok (Some n) ->
  inserted_at st k = Some t -> t < clk (qreadings st) - n -> last_refresh st k = Some t' -> expiration_interval_in_cycle cf <= clk (qreadings st) - t' ->
  entry st' k = None.
Proof. exact flush_drops. Qed.
Print Assumptions C53_flush_drops.
(** If FlushAll has never been called, an entry leaves the cache only when it has not been refreshed for the expiration interval. *)
Theorem C53_leaves_stale_partial : forall debug ord md5 clk cf, proper_clock clk -> forall st h call st' res k a,
  qreach debug ord md5 clk cf st h -> Forall (fun ev => qv_call ev <> QFlushAllC) h -> call <> QFlushAllC -> returns debug ord md5 clk cf call st (st', res) ->
  entry st k = Some a -> entry st' k <> Some a ->
  exists t i, last_refresh st k = Some t /\ (qreadings st <= i < qreadings st')%nat /\ expiration_interval_in_cycle cf <= clk i - t.
Proof. exact leaves_stale. Qed.
Print Assumptions C53_leaves_stale_partial.
(** The time of the last refresh is a reading of the clock during the last call that handed out a request for the entry. *)
Theorem C53_refresh_recorded : forall debug ord md5 clk cf, proper_clock clk -> forall st h k,
  qreach debug ord md5 clk cf st h -> told_apart md5 h -> qcached st k ->
  exists ev t, qmost_recent (hands_out md5 k) h ev /\ last_refresh st k = Some t /\ qduring clk t ev.
Proof. exact refresh_recorded. Qed.
Print Assumptions C53_refresh_recorded.
(** After FlushAll, even on an empty cache, an entry leaves the cache though it was refreshed within the interval, and
    what it has accumulated is gone. *)
Theorem C53_leaves_stale_refuted : exists clk cf st h st' res k, proper_clock clk /\ 0 < qp_entries (qf_options cf) /\
  qreach true default_order qk_md5 clk cf st h /\ returns true default_order qk_md5 clk cf QFlushC st (st', res) /\
  qcached st k /\ entry st' k = None /\ qres_flushed res = [] /\ accumulated default_order st <> [] /\
  exists t, last_refresh st k = Some t /\ forall i, (i < qreadings st')%nat -> clk i - t < expiration_interval_in_cycle cf.
Proof.
  exists qk_clk, (qk_cf qk_default_options), (qk_st (take 4 qk_flag)), (qk_h (take 4 qk_flag)), (qk_st qk_flag), (qv_result (qk_ev qk_flag 4)), qk_sig.
  split; [exact qk_clock|]. split; [done|]. split; [qreaches|]. split; [exists qk_fuel; vm_compute; reflexivity|].
  split; [vm_compute; discriminate|]. split; [vm_compute; reflexivity|]. split; [vm_compute; reflexivity|]. split; [vm_compute; discriminate|].
  exists 0. split; [vm_compute; reflexivity|]. intros i Hi. assert (clk_ok : forall i, (i < 22)%nat -> qk_clk i <= 6000000).
  { intros j Hj. assert (Forall (fun j => qk_clk j <= 6000000) (seq 0 22)) as F by (repeat constructor; vm_compute; discriminate).
    rewrite Forall_forall in F. apply F, elem_of_seq. lia. }
  assert ((qreadings (qk_st qk_flag) <= 22)%nat) as Hr by (vm_compute; lia).
  specialize (clk_ok i ltac:(lia)). assert (6000000 < expiration_interval_in_cycle (qk_cf qk_default_options)) by (vm_compute; reflexivity). lia.
Qed.
Print Assumptions C53_leaves_stale_refuted.
Example C53_example : qk_qreach (qk_st qk_calls) (qk_h qk_calls) /\ Forall (fun ev => qv_call ev <> QFlushAllC) (qk_h qk_calls) /\ told_apart qk_md5 (qk_h qk_calls) /\
  qcached (qk_st qk_calls) qk_sig /\ exists t t' r, inserted_at (qk_st qk_calls) qk_sig = Some t /\ t < qk_clk (qreadings (qk_st qk_calls)) - 1000000 /\
    cycles_of_ms 1000 = Ok (Some 1000000) /\ last_refresh (qk_st qk_calls) qk_sig = Some t' /\
    expiration_interval_in_cycle (qk_cf qk_default_options) <= qk_clk (qreadings (qk_st qk_calls)) - t' /\
    qk_returns QFlushC (qk_st qk_calls) r /\ entry r.1 qk_sig = None.
Proof.
  split; [qreaches|]. split. { assert (qk_h qk_calls = qk_ev qk_calls <$> seq 0 8) as -> by (vm_compute; reflexivity). cbn [seq fmap list_fmap]. repeat (apply Forall_cons_2; [vm_compute; discriminate|]). apply Forall_nil_2. }
  split; [apply qk_told; vm_compute; reflexivity|]. split; [vm_compute; discriminate|].
  eexists _, _, _. split; [vm_compute; reflexivity|]. split; [vm_compute; reflexivity|]. split; [vm_compute; reflexivity|]. split; [vm_compute; reflexivity|].
  split; [vm_compute; discriminate|]. split; [exists qk_fuel; vm_compute; reflexivity|vm_compute; reflexivity].
Qed.
