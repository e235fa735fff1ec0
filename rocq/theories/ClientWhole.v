(** Where the requests of the user go: from the calls of the client to the requests that the server gets. *)
From Verif Require Import Base Proto Signature OpAgg OpAggSpec Lru Timeout Agg CheckAgg CheckAggSpec QuotaAgg QuotaAggSpec LruSpec ReportAgg ReportAggSpec ReportDrain Client ClientSpec ClientInv ClientCalls ClientStage ClientLocks ClientFlush ClientEnd ClientDrain ClientFacts ClientClaims ClientTick.
From stdpp Require Import gmap list.
Local Open Scope Z_scope.
Set Implicit Arguments.

(** ** Vocabulary *)
(** The requests of a kind that the user made with a transport to use. *)
Definition requests_of (cf : client_config) (k : kind) (tr : list event) : list request :=
  tr ≫= fun ev => match ev with EStart _ _ a => if has_transport cf a && bool_decide (kind_of (ap_request a) = k) then [ap_request a] else [] | _ => [] end.
(** The request that the call of the aggregator is for, if it is for one. *)
Definition asked_request (call : agg_call) : option request :=
  match call with OnCheck (CCheck q) => Some (RqCheck q) | OnQuota (QQuota q) => Some (RqQuota q) | OnReport (RReport q) => Some (RqReport q) | _ => None end.
(** The requests of a kind that the aggregator answered with a status of this sort, in the order in which it got them. *)
Definition answered_with (k : kind) (p : status_code -> bool) (a : aggs) : list request :=
  calls k a ≫= fun x => if p (rs_status x.2) then option_list (asked_request x.1) else [].
Definition not_found (s : status_code) : bool := status_eqb s SNotFound.
Definition is_ok (s : status_code) : bool := status_eqb s SOk.
Definition other_status (s : status_code) : bool := negb (not_found s || is_ok s).
Definition report_of (q : request) : list report_request := match q with RqReport q => [q] | _ => [] end.

Section whole.
Variable debug : bool.
Variable ord : hash_order.
Variable md5 : string -> string.
Variable clk : kind -> nat -> Z.
Variable cf : client_config.
Notation reach := (reach debug ord md5 clk cf).
Notation agg_step := (agg_step debug ord md5 clk cf).
Implicit Types (w : world) (t : nat) (i : instr) (ths : list (list instr)) (tr : list event).

Lemma idle_all {A} (f : instr -> list A) ths : f IUser = [] -> nothing_running ths -> all f ths = [].
Proof.
  intros Hf Hn. unfold all. induction Hn as [|st ths Hs Hn IH]; [done|]. rewrite bind_cons, IH, app_nil_r. induction Hs as [|i st -> Hs IH2]; [done|].
  rewrite bind_cons, Hf, IH2. done.
Qed.

(** *** The requests are those that the aggregators were asked about *)
Lemma asked_perm (l1 l2 : list agg_call) : l1 ≡ₚ l2 -> l1 ≫= (fun c => option_list (asked_request c)) ≡ₚ l2 ≫= (fun c => option_list (asked_request c)).
Proof. intros H. by apply bind_Permutation. Qed.
Lemma filter_bind (k : kind) (l : list agg_call) : filter (fun c => call_kind c = k) l ≫= (fun c => option_list (asked_request c)) =
  l ≫= fun c => if bool_decide (call_kind c = k) then option_list (asked_request c) else [].
Proof.
  induction l as [|c l IH]; [done|]. rewrite bind_cons. destruct (decide (call_kind c = k)) as [E|E].
  - rewrite filter_cons_True, bool_decide_true by done. rewrite bind_cons, IH. done.
  - rewrite filter_cons_False, bool_decide_false by done. by rewrite IH.
Qed.
Lemma bind_bind {A B C} (f : A -> list B) (g : B -> list C) l : (l ≫= f) ≫= g = l ≫= fun x => f x ≫= g.
Proof. induction l as [|x l IH]; [done|]. by rewrite !bind_cons, bind_app, IH. Qed.
Lemma due_asked k tr : due cf k tr ≫= (fun c => option_list (asked_request c)) = requests_of cf k tr.
Proof.
  unfold due. rewrite filter_bind, bind_bind. unfold requests_of. apply bind_ext_in. intros ev _. destruct ev; try done; cbn [reasons].
  - destruct (has_transport cf a); [|done]. cbn [andb mbind list_bind]. rewrite app_nil_r. destruct (ap_request a); cbn [agg_call_of call_kind kind_of asked_request option_list]; by case_bool_decide.
  - rewrite bind_bind. erewrite bind_ext_in; [|].
    + instantiate (1 := fun _ => []). induction (sent_as i tr) as [|x l IH]; [done|]. by rewrite bind_cons, IH.
    + intros [[c|k' n] q] _; [destruct q|destruct q]; cbn; try done; try destruct (status_eqb _ _); cbn; by repeat case_bool_decide.
  - destruct k; done.
  - destruct k; done.
Qed.
Lemma all_asked k ths w : reach (ths, w) -> w_crash w = None -> nothing_running ths ->
  answered_with k is_ok (w_aggs w) ++ answered_with k not_found (w_aggs w) ++ answered_with k other_status (w_aggs w) ≡ₚ requests_of cf k (w_trace w).
Proof.
  intros R Hc Hn. rewrite <- due_asked, <- (asked_perm (all_calls k R Hc Hn)). unfold answered_with.
  induction (calls k (w_aggs w)) as [|[c r] l IH]; [done|]. cbn [fmap list_fmap fst]. rewrite !bind_cons, <- IH. cbn [snd fst]. unfold other_status, is_ok, not_found.
  destruct (rs_status r); cbn; rewrite ?app_nil_r; solve_Permutation.
Qed.

(** *** What the aggregator does not answer is forwarded *)
Definition forwarding (k : kind) i : list request :=
  match i with
  | IAfter _ a _ r => if not_found (rs_status r) && bool_decide (kind_of (ap_request a) = k) then [ap_request a] else []
  | ITransport (FromCall _) q _ => if bool_decide (kind_of q = k) then [q] else []
  | _ => []
  end.
Lemma forwarding_items k k' n qs : (IFlush k' n <$> qs) ≫= forwarding k = [].
Proof. induction qs as [|q qs IH]; [done|]. exact IH. Qed.
Lemma sent_for_calls_snoc k tr ev : sent_for_calls k (tr ++ [ev]) = sent_for_calls k tr ++ match ev with ETransport _ _ (FromCall _) q => if decide (kind_of q = k) then [q] else [] | _ => [] end.
Proof. unfold sent_for_calls. rewrite bind_app. cbn. by rewrite app_nil_r. Qed.
Lemma forwards_conserved k ths w : reach (ths, w) -> w_crash w = None -> all (forwarding k) ths ++ sent_for_calls k (w_trace w) ≡ₚ answered_with k not_found (w_aggs w).
Proof.
  refine (reach_ind' (fun ths w => w_crash w = None -> all (forwarding k) ths ++ sent_for_calls k (w_trace w) ≡ₚ answered_with k not_found (w_aggs w)) _ _ _ (ths := ths) (w := w)); clear ths w.
  - intros a Ha _. unfold answered_with. cbn [new_world w_aggs w_trace]. by rewrite (proj2 (new_aggs_sequential debug _ md5 _ _ Ha)).
  - intros ths w _ IH _ Hc. rewrite all_spawn by done. by apply IH.
  - intros ths w t i rest new w' R IH Hc Ht E Hc'. eapply measure_step; [exact Ht|exact (IH Hc)|]. clear IH Hc.
    destruct E; wsimpl; try done; rewrite ?sent_for_calls_snoc, ?app_nil_r.
    all: try reflexivity.
    + unfold api_code. destruct (ap_blocking a); reflexivity.
    + destruct (agg_step_calls _ _ _ _ _ _ _ _ H) as [Hk1 Hk2]. rewrite !bind_app, forwarding_items. cbn [forwarding mbind list_bind app].
      pose proof (reach_not_for_user R _ Ht (elem_of_list_here _ _)) as Hu. pose proof (st_each (proj1 (reach_staged R)) _ Ht (elem_of_list_here _ _)) as Hst. cbn in Hu, Hst.
      unfold answered_with. destruct (decide (call_kind call = k)) as [<-|Ne].
      * rewrite Hk1, bind_app, bind_cons. cbn [fst snd]. destruct u as [[c a']|].
        -- destruct Hst as (-> & _ & _). cbn [forwarding mbind list_bind]. destruct (not_found (rs_status r)); destruct (ap_request a'); cbn; rewrite ?app_nil_r; solve_Permutation.
        -- assert (asked_request call = None) as -> by (destruct call as [[]|[]|[]]; done). cbn. destruct (not_found _); cbn; rewrite ?app_nil_r; reflexivity.
      * rewrite Hk2 by done. destruct u as [[c a']|]; [|done]. destruct Hst as (-> & _ & _). cbn [forwarding mbind list_bind].
        rewrite bool_decide_false, andb_false_r by (by destruct (ap_request a')). done.
    + unfold callback_code. destruct q; reflexivity.
    + unfold after_code. cbn [forwarding]. unfold not_found. destruct (status_eqb _ _); [|reflexivity]. destruct (ap_request a); cbn; rewrite ?app_nil_r; try reflexivity; solve_Permutation.
    + destruct o; cbn [forwarding]; [|cbn; by rewrite ?app_nil_r]. cbn. case_bool_decide; destruct (decide _); try done; rewrite ?app_nil_r; solve_Permutation.
    + destruct o; cbn [forwarding]; [|cbn; by rewrite ?app_nil_r]. cbn. case_bool_decide; destruct (decide _); try done; rewrite ?app_nil_r; solve_Permutation.
    + destruct f; try done; cbn; destruct (status_eqb _ _); reflexivity.
Qed.
Lemma all_forwarded k ths w : reach (ths, w) -> w_crash w = None -> nothing_running ths -> sent_for_calls k (w_trace w) ≡ₚ answered_with k not_found (w_aggs w).
Proof. intros R Hc Hn. rewrite <- (forwards_conserved k R Hc). by rewrite idle_all. Qed.

(** *** Every call returns *)
Definition returning i : list nat := match i with IReturn c => [c] | _ => [] end.
Definition returned tr : list nat := tr ≫= fun ev => match ev with EReturn _ c => [c] | _ => [] end.
Lemma returned_snoc tr ev : returned (tr ++ [ev]) = returned tr ++ match ev with EReturn _ c => [c] | _ => [] end.
Proof. unfold returned. rewrite bind_app. cbn. by rewrite app_nil_r. Qed.
Lemma returning_items k' n qs : (IFlush k' n <$> qs) ≫= returning = [].
Proof. induction qs as [|q qs IH]; [done|]. exact IH. Qed.
Lemma returns_conserved ths w : reach (ths, w) -> w_crash w = None -> all returning ths ++ returned (w_trace w) ≡ₚ started (w_trace w).
Proof.
  refine (reach_ind' (fun ths w => w_crash w = None -> all returning ths ++ returned (w_trace w) ≡ₚ started (w_trace w)) _ _ _ (ths := ths) (w := w)); clear ths w.
  - done.
  - intros ths w _ IH _ Hc. rewrite all_spawn by done. by apply IH.
  - intros ths w t i rest new w' R IH Hc Ht E Hc'. eapply measure_step; [exact Ht|exact (IH Hc)|]. clear IH Hc.
    destruct E; wsimpl; try done; rewrite ?returned_snoc, ?started_snoc, ?app_nil_r.
    all: try reflexivity.
    + unfold api_code. destruct (ap_blocking a); cbn; solve_Permutation.
    + rewrite !bind_app, returning_items. destruct u as [[c a']|]; reflexivity.
    + unfold callback_code. destruct q; reflexivity.
    + unfold after_code. destruct (status_eqb _ _), (ap_request a); reflexivity.
    + destruct f; try done; cbn; destruct (status_eqb _ _); reflexivity.
    + cbn. solve_Permutation.
Qed.
Lemma all_returned ths w t c a : reach (ths, w) -> w_crash w = None -> nothing_running ths -> EStart t c a ∈ w_trace w -> exists t', EReturn t' c ∈ w_trace w.
Proof.
  intros R Hc Hn Hs. assert (c ∈ started (w_trace w)) as H. { apply elem_of_list_bind. eexists. split; [|exact Hs]. constructor. }
  rewrite <- (returns_conserved R Hc), idle_all in H by done. cbn in H. apply elem_of_list_bind in H as (ev & H & Hin). destruct ev; try by apply elem_of_nil in H.
  apply elem_of_list_singleton in H as ->. eauto.
Qed.
(** The user is told the status when the aggregator answered. *)
Lemma agg_unique ths w t c a t1 k1 n1 t2 k2 n2 : reach (ths, w) -> w_crash w = None -> EStart t c a ∈ w_trace w ->
  EAgg t1 k1 n1 (Some c) ∈ w_trace w -> EAgg t2 k2 n2 (Some c) ∈ w_trace w -> k1 = k2 /\ n1 = n2.
Proof.
  intros R Hc Hs H1 H2. pose proof (reach_progress R Hc Hs) as P.
  apply (story_elem c) in H1; [|apply Nat.eqb_refl]. apply (story_elem c) in H2; [|apply Nat.eqb_refl].
  revert H1 H2. destruct P as [t3|t3 n r _ _|t3 n r i _ _ _|t3 s r l S]; [| | |destruct S as [t4 _|t4 n r _ _ _|t4 t5 n r i s rp b _ _ _ _]]; cbn [app]; rewrite !elem_of_cons, !elem_of_nil; intros H1 H2;
    destruct_or? H1; destruct_or? H2; try done; inversion H1; inversion H2; subst; done.
Qed.
Lemma told ths w k p q : reach (ths, w) -> w_crash w = None -> nothing_running ths -> (forall s, p s = true -> s <> SNotFound) -> q ∈ answered_with k p (w_aggs w) ->
  exists t c a t' s r, EStart t c a ∈ w_trace w /\ ap_request a = q /\ EDone t' c s r ∈ w_trace w /\ p s = true.
Proof.
  intros R Hc Hn Hp Hq. unfold answered_with in Hq. apply elem_of_list_bind in Hq as ([call r] & Hq & Hin). cbn [fst snd] in Hq. destruct (p (rs_status r)) eqn:Ep; [|by apply elem_of_nil in Hq].
  destruct (asked_request call) as [q'|] eqn:Eq; [|by apply elem_of_nil in Hq]. apply elem_of_list_singleton in Hq as ->.
  assert (call = agg_call_of q') as -> by (destruct call as [[]|[]|[]]; cbn in Eq; try done; by injection Eq as <-).
  apply elem_of_list_lookup in Hin as (n & Hin). destruct (reach_asked_for _ _ R Hin) as (t & c & a & H1 & H2 & H3 & H4); [by destruct q'|].
  destruct (all_returned R Hc Hn H2) as (t' & H5). destruct (call_forwarded R Hc H2 H5 H3) as (n' & r' & E1 & E2 & E3).
  destruct (agg_unique R Hc H2 H1 E1) as [-> ->]. rewrite Hin in E2. injection E2 as E2 ->.
  destruct (status_eqb (rs_status r') SNotFound) eqn:Es. { apply status_eqb_eq in Es. by apply Hp in Ep. }
  destruct E3 as [_ (t'' & E3)]. exists t, c, a, t'', (rs_status r'), (rs_reply r'). split; [done|]. split; [|done]. destruct q', (ap_request a); cbn in H4; congruence.
Qed.

(** *** Reports, from the user to the server *)
Lemma accepted_calls a : accepted (ag_hr a) = report_operations (answered_with KReport is_ok a).
Proof.
  unfold accepted, report_operations, answered_with. cbn [calls]. induction (ag_hr a) as [|ev h IH]; [done|]. cbn [fmap list_fmap]. rewrite !bind_cons, bind_app, <- IH. f_equal.
  unfold accepted_ops, is_ok. cbn [fst snd report_res rs_status]. destruct (rv_call ev), (rres_status (rv_result ev)); cbn; by rewrite ?app_nil_r.
Qed.
Lemma reports_end ths w t l1 l2 : proper_clock (clk KReport) -> reach (ths, w) -> w_crash w = None -> nothing_running ths -> w_trace w = l1 ++ EDisconnect t KReport :: l2 ->
  (forall t' n u, EAgg t' KReport n u ∈ l1 -> EAggReturn t' KReport n ∈ l1) ->
  exists taken refused, requests_of cf KReport (w_trace w) ≡ₚ taken ++ sent_for_calls KReport (w_trace w) ++ refused /\
    (exists gs os, split_into ord md5 (report_operations taken) gs /\ Forall2 (merges ord md5 (cf_reports cf)) gs os /\ report_operations (sent_by_flush KReport (w_trace w)) ≡ₚ os) /\
    forall q, q ∈ refused -> exists t c a t' s r, EStart t c a ∈ w_trace w /\ ap_request a = q /\ EDone t' c s r ∈ w_trace w /\ s <> SOk /\ s <> SNotFound.
Proof.
  intros Hclk R Hc Hn Htr Hret. exists (answered_with KReport is_ok (w_aggs w)), (answered_with KReport other_status (w_aggs w)). split.
  { rewrite (all_forwarded KReport R Hc Hn). by rewrite (all_asked KReport R Hc Hn). }
  split.
  - destruct (destroyed_reports Hclk _ _ R Hc Htr Hret) as (_ & Hp & gs & Hm & Hs). exists gs, (ops_of (rflushed (ag_hr (w_aggs w)))). rewrite <- accepted_calls. split; [done|]. split; [done|].
    unfold report_operations. rewrite Hp. unfold ops_of. clear. induction (rflushed (ag_hr (w_aggs w))) as [|q qs IH]; [done|]. cbn [fmap list_fmap]. rewrite !bind_cons. by rewrite IH.
  - intros q Hq. eapply told in Hq as (t1 & c & a & t' & s & r & H1 & H2 & H3 & H4); [|exact R|done|done|by intros []].
    exists t1, c, a, t', s, r. by destruct s.
Qed.
End whole.
