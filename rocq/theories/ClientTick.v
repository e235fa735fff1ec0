(** Why the client calls its aggregators: every call of an aggregator has one cause, and every cause leads to one call. *)
From Verif Require Import Base Proto Signature OpAgg Lru Timeout Agg CheckAgg CheckAggSpec QuotaAgg QuotaAggSpec ReportAgg ReportAggSpec Client ClientSpec ClientInv ClientCalls ClientStage ClientLocks ClientFlush ClientEnd ClientDrain.
From stdpp Require Import gmap list.
Local Open Scope Z_scope.
Set Implicit Arguments.

(** ** Vocabulary *)
(** What was given to the transport as number [n], and on whose behalf. *)
Definition sent_as (n : nat) (tr : list event) : list (origin * request) := tr ≫= fun ev => match ev with ETransport _ m o q => if Nat.eqb m n then [(o, q)] else [] | _ => [] end.
(** The calls of aggregators that an event is a reason for: a call of the user, one for its request; a tick of the timer,
    a flush of every cache; the destruction, a flush of everything; an answer of the server, the recording of it. *)
Definition reasons (cf : client_config) (tr : list event) (ev : event) : list agg_call :=
  match ev with
  | EStart _ _ a => if has_transport cf a then [agg_call_of (ap_request a)] else []
  | ETick _ => [OnCheck CFlush; OnQuota QFlushC; OnReport RFlush]
  | EDestroy _ => [OnCheck CFlushAll; OnQuota QFlushAllC; OnReport RFlushAll]
  | ECompleted _ n s r _ =>
    sent_as n tr ≫= fun x =>
      match x with
      | (FromCall _, q) | (FromFlush _ _, (RqQuota _ as q)) => option_list (recording q s r)
      | (FromFlush _ _, _) => []
      end
  | _ => []
  end.
Definition due (cf : client_config) (k : kind) (tr : list event) : list agg_call := filter (fun call => call_kind call = k) (tr ≫= reasons cf tr).

Section accounts.
Variable debug : bool.
Variable ord : hash_order.
Variable md5 : string -> string.
Variable clk : kind -> nat -> Z.
Variable cf : client_config.
Notation reach := (reach debug ord md5 clk cf).
Notation agg_step := (agg_step debug ord md5 clk cf).
Implicit Types (w : world) (t : nat) (i : instr) (ths : list (list instr)) (tr : list event).

Definition agg_in i : list agg_call := match i with IAgg call _ | IBody call _ => [call] | _ => [] end.
Definition to_call i : list agg_call :=
  match i with
  | IGate c a => if has_transport cf a then [agg_call_of (ap_request a)] else []
  | ICompleted n f s r => completed_code f s r ≫= agg_in
  | _ => agg_in i
  end.
Definition made (k : kind) (a : aggs) : list agg_call := (calls k a).*1.

Lemma sent_as_nil n tr : n ∉ sent tr -> sent_as n tr = [].
Proof.
  unfold sent, sent_as. induction tr as [|ev tr IH]; [done|]. rewrite !bind_cons. intros H. rewrite not_elem_of_app in H. destruct H as [H1 H2]. rewrite IH by done.
  destruct ev; try done. destruct (Nat.eqb_spec i n) as [->|]; [|done]. exfalso. apply H1. constructor.
Qed.
Lemma sent_as_one n tr t o q : NoDup (sent tr) -> ETransport t n o q ∈ tr -> sent_as n tr = [(o, q)].
Proof.
  intros Hn (l1 & l2 & ->)%elem_of_list_split. unfold sent in Hn. rewrite bind_app, bind_cons in Hn. fold (sent l1) (sent l2) in Hn.
  apply NoDup_app in Hn as (H1 & H2 & H3). apply NoDup_app in H3 as (_ & H3 & _). unfold sent_as. rewrite bind_app, bind_cons, Nat.eqb_refl.
  fold (sent_as n l1) (sent_as n l2). rewrite !sent_as_nil; [done| |].
  - apply H3. constructor.
  - intros H4. apply (H2 _ H4). constructor.
Qed.
Lemma reasons_ext tr ev n : ev ∈ tr -> (forall m, m ∈ answered tr -> m ∉ n) -> forall tr', sent tr' = n -> reasons cf (tr ++ tr') ev = reasons cf tr ev.
Proof.
  intros Hin H tr' Hs. destruct ev; try done. cbn [reasons]. unfold sent_as. rewrite bind_app. fold (sent_as i tr) (sent_as i tr'). rewrite (sent_as_nil tr'), app_nil_r; [done|].
  rewrite Hs. apply H. unfold answered. apply elem_of_list_bind. eexists. split; [|exact Hin]. constructor.
Qed.
Lemma bind_ext_in {A B} (f g : A -> list B) l : (forall x, x ∈ l -> f x = g x) -> l ≫= f = l ≫= g.
Proof. induction l as [|x l IH]; [done|]. intros H. rewrite !bind_cons, H by constructor. f_equal. apply IH. intros y Hy. apply H. by constructor. Qed.
Lemma due_ext k tr tr' : (forall m, m ∈ answered tr -> m ∉ sent tr') -> due cf k (tr ++ tr') = due cf k tr ++ filter (fun call => call_kind call = k) (tr' ≫= reasons cf (tr ++ tr')).
Proof.
  intros H. unfold due. rewrite bind_app, filter_app. f_equal. f_equal. apply bind_ext_in. intros ev Hev. by eapply reasons_ext.
Qed.
Lemma due_snoc k tr ev : (forall m, m ∈ answered tr -> m ∉ sent [ev]) -> due cf k (tr ++ [ev]) = due cf k tr ++ filter (fun call => call_kind call = k) (reasons cf (tr ++ [ev]) ev).
Proof. intros H. rewrite due_ext by done. cbn [mbind list_bind]. by rewrite app_nil_r. Qed.

Definition pend k i := filter (fun call => call_kind call = k) (to_call i).
Lemma pend_items k k' n qs : (IFlush k' n <$> qs) ≫= pend k = [].
Proof. induction qs as [|q qs IH]; [done|]. exact IH. Qed.
Lemma pend_list k l : l ≫= pend k = filter (fun call => call_kind call = k) (l ≫= to_call).
Proof. induction l as [|i l IH]; [done|]. rewrite !bind_cons, filter_app, IH. done. Qed.
Lemma completed_to_call f s r : completed_code f s r ≫= to_call = completed_code f s r ≫= agg_in.
Proof. destruct f; try done; cbn; by destruct (status_eqb _ _). Qed.
Lemma completed_reasons w n f s r : NoDup (sent (w_trace w)) -> origin_of cf w n f -> forall t b l, sent l = [] -> reasons cf (w_trace w ++ l) (ECompleted t n s r b) = completed_code f s r ≫= agg_in.
Proof.
  intros Hn Ho t b l Hl. cbn [reasons]. unfold sent_as. rewrite bind_app. fold (sent_as n (w_trace w)) (sent_as n l). rewrite (sent_as_nil l) by (rewrite Hl; apply not_elem_of_nil). rewrite app_nil_r.
  destruct Ho as [(t1 & c & a & n1 & r1 & -> & _ & _ & _ & H & _)|(t1 & k & n1 & q & -> & H)]; rewrite (sent_as_one Hn H); cbn [mbind list_bind]; rewrite app_nil_r.
  - destruct (ap_request a); cbn; try done. by destruct (status_eqb _ _).
  - destruct q; done.
Qed.
Lemma answered_before ths w : reach (ths, w) -> forall m, m ∈ answered (w_trace w) -> (m < w_sends w)%nat.
Proof. intros R m Hm. destruct (sent_seq R) as [E P]. assert (m ∈ sent (w_trace w)) as H. { rewrite <- P. apply elem_of_app. by right. } rewrite E in H. apply elem_of_seq in H. lia. Qed.
Lemma reach_nodup ths w : reach (ths, w) -> NoDup (sent (w_trace w)).
Proof. intros R. rewrite (proj1 (sent_seq R)). apply NoDup_seq. Qed.

Lemma calls_conserved k ths w : reach (ths, w) -> w_crash w = None -> all (pend k) ths ++ made k (w_aggs w) ≡ₚ due cf k (w_trace w).
Proof.
  refine (reach_ind' (fun ths w => w_crash w = None -> all (pend k) ths ++ made k (w_aggs w) ≡ₚ due cf k (w_trace w)) _ _ _ (ths := ths) (w := w)); clear ths w.
  - intros a Ha _. unfold made. cbn [new_world w_aggs w_trace]. by rewrite (proj2 (new_aggs_sequential debug _ md5 _ _ Ha)).
  - intros ths w _ IH _ Hc. rewrite all_spawn by done. by apply IH.
  - intros ths w t i rest new w' R IH Hc Ht E Hc'. eapply measure_step; [exact Ht|exact (IH Hc)|]. clear IH Hc.
    pose proof (answered_before R) as HA. pose proof (reach_nodup R) as HN. pose proof (reach_staged R) as [HS _].
    assert (forall ev, sent [ev] = [] -> due cf k (w_trace w ++ [ev]) = due cf k (w_trace w) ++ filter (fun call => call_kind call = k) (reasons cf (w_trace w ++ [ev]) ev)) as HD.
    { intros ev He. apply due_snoc. intros m _. rewrite He. apply not_elem_of_nil. }
    rewrite pend_list. change (pend k i) with (filter (fun call => call_kind call = k) (to_call i)).
    destruct E; wsimpl; try done.
    all: try (rewrite HD by done; cbn [reasons mbind list_bind to_call agg_in app]; rewrite ?app_nil_r; reflexivity).
    all: try reflexivity.
    + rewrite HD by done. unfold api_code. cbn [reasons]. destruct (ap_blocking a); cbn [mbind list_bind to_call agg_in app]; rewrite ?app_nil_r; solve_Permutation.
    + rewrite HD by done. pose proof (st_pending HS (p := (n, f)) (elem_of_list_lookup_2 _ _ _ H)) as Ho. rewrite (completed_reasons s r HN Ho) by done.
      cbn [mbind list_bind to_call agg_in app]. rewrite ?app_nil_r. solve_Permutation.
    + rewrite HD by done. cbn [reasons tick_code mbind list_bind to_call agg_in app]. destruct k; cbn; solve_Permutation.
    + rewrite HD by done. cbn [reasons destroy_code mbind list_bind to_call agg_in app]. destruct k; cbn; solve_Permutation.
    + cbn [mbind list_bind to_call agg_in app]. rewrite H0. reflexivity.
    + cbn [mbind list_bind to_call agg_in app]. rewrite H0. reflexivity.
    + rewrite HD by done. cbn [reasons]. rewrite app_nil_r. destruct (agg_step_calls _ _ _ _ _ _ _ _ H) as [Hk1 Hk2]. rewrite <- pend_list, !bind_app, pend_items.
      match goal with |- context [mbind (pend k) ?l] => match l with match u with _ => _ end => replace (mbind (pend k) l) with (@nil agg_call) by by destruct u as [[]|] end end.
      cbn [mbind list_bind pend to_call agg_in app]. unfold made. destruct (decide (call_kind call = k)) as [<-|Ne].
      * rewrite Hk1, fmap_app. rewrite filter_cons_True by done. cbn. solve_Permutation.
      * rewrite Hk2 by done. rewrite filter_cons_False by done. done.
    + rewrite HD by done. unfold callback_code. destruct q; cbn; rewrite ?app_nil_r; reflexivity.
    + unfold after_code. destruct (status_eqb _ _), (ap_request a); reflexivity.
    + rewrite due_snoc; [cbn; by rewrite ?app_nil_r|]. intros m Hm%HA Hin. apply elem_of_list_singleton in Hin. lia.
    + rewrite <- app_assoc. rewrite due_ext; cycle 1. { intros m Hm%HA Hin. apply elem_of_list_singleton in Hin. lia. }
      assert (completed_code f s r ≫= agg_in = match o, q with FromCall _, _ | FromFlush _ _, RqQuota _ => option_list (recording q s r) | _, _ => [] end) as Hf.
      { pose proof (st_each HS _ Ht (elem_of_list_here _ _)) as Hst. cbn in Hst. destruct o; [destruct Hst as (a & n & r' & _ & _ & _ & ->)|rewrite Hst]; destruct q; try done. cbn. by destruct (status_eqb _ _). }
      assert (sent_as (w_sends w) (w_trace w ++ [ETransport t (w_sends w) o q] ++ [ECompleted t (w_sends w) s r true]) = [(o, q)]) as Hs.
      { unfold sent_as. rewrite bind_app. fold (sent_as (w_sends w) (w_trace w)). rewrite sent_as_nil. 2:{ rewrite (proj1 (sent_seq R)), elem_of_seq. lia. } cbn. by rewrite Nat.eqb_refl. }
      cbn [mbind list_bind app reasons to_call agg_in] in *. rewrite Hs. cbn [mbind list_bind]. rewrite !app_nil_r, Hf. destruct o, q; cbn [app]; rewrite ?app_nil_r; solve_Permutation.
    + by rewrite completed_to_call.
Qed.
Lemma all_calls k ths w : reach (ths, w) -> w_crash w = None -> nothing_running ths -> (calls k (w_aggs w)).*1 ≡ₚ due cf k (w_trace w).
Proof.
  intros R Hc Hn. rewrite <- (calls_conserved k R Hc). enough (all (pend k) ths = []) as -> by done. clear -Hn. unfold all.
  induction Hn as [|st ths Hs Hn IH]; [done|]. rewrite bind_cons, IH, app_nil_r. induction Hs as [|i st -> Hs IH2]; [done|]. exact IH2.
Qed.
Lemma no_other_call k ths w : reach (ths, w) -> w_crash w = None -> (calls k (w_aggs w)).*1 ⊆+ due cf k (w_trace w).
Proof. intros R Hc. rewrite <- (calls_conserved k R Hc). by apply submseteq_inserts_l. Qed.
End accounts.
