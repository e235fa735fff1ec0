(** Invariants of the client, part 12: without timer ticks nothing is being flushed when the destructor disconnects. *)
From Verif Require Import Base Proto Signature OpAgg OpAggSpec Lru LruSpec Timeout TimeoutProofs Agg CheckAgg CheckAggSpec QuotaAgg QuotaAggSpec ReportAgg ReportAggSpec Client ClientSpec ClientInv ClientCalls ClientStage ClientFlush ClientLocks ClientLive ClientEnd ClientDrain ClientFacts.
From stdpp Require Import gmap list.
Local Open Scope Z_scope.
Set Implicit Arguments.

Section quiet.
Variable debug : bool.
Variable ord : hash_order.
Variable md5 : string -> string.
Variable clk : kind -> nat -> Z.
Variable cf : client_config.
Notation step := (step debug ord md5 clk cf).
Notation reach := (reach debug ord md5 clk cf).
Notation estep := (estep debug ord md5 clk cf).
Implicit Types (w : world) (t : nat) (i : instr) (ths : list (list instr)) (tr : list event).

(** A report call is made by the user, by the destructor or by the timer. *)
Definition reports i : bool := match i with IAgg (OnReport _) _ | IBody (OnReport _) _ | IAggReturn KReport _ => true | _ => false end.
Definition held w (l : list instr) : Prop := (exists c, IReturn c ∈ l) \/ IDisconnect KReport ∈ l \/ exists t, ETick t ∈ w_trace w.
Definition anchored w i (l : list instr) : Prop := reports i = true -> held w l.
Lemma held_app w l m : held w m -> held w (l ++ m).
Proof. intros [(c & H)|[H|H]]; [left; exists c|right; left|by right; right]; apply elem_of_app; by right. Qed.
Lemma anchored_new w new rest : (forall l1 j l2, new = l1 ++ j :: l2 -> reports j = true -> held w (l2 ++ rest)) -> below (anchored w) rest -> below (anchored w) (new ++ rest).
Proof.
  intros H B. induction new as [|j new IH]; [done|]. split.
  - intros Hj. by apply (H [] j new).
  - apply IH. intros l1 j' l2 ->. by apply (H (j :: l1)).
Qed.
Lemma reach_anchored ths w : reach (ths, w) -> belows (anchored w) ths.
Proof.
  revert ths w. refine (reach_ind' (fun ths w => belows (anchored w) ths) _ _ _).
  - by intros a _ t st H.
  - intros ths w _ IH _. by apply belows_spawn.
  - intros ths w t i rest new w' R IH Hc Ht E. destruct (estep_trace E) as (evs & Htr).
    assert (forall l, held w l -> held w' l) as Hm. { intros l [H|[H|(t' & H)]]; [by left|right; by left|right; right]. exists t'. rewrite Htr. apply elem_of_app. by left. }
    assert (belows (anchored w') ths) as IH'. { intros t' st H. eapply below_impl; [|by eapply IH]. intros j l Hj Hr. by apply Hm, Hj. }
    eapply belows_step; [exact IH'|exact Ht|]. intros H1 H2. apply anchored_new; [|done].
    assert (reports i = true -> forall l, held w' (l ++ rest)) as Hi. { intros Hr l. by apply held_app, H1. }
    assert (forall c, IReturn c ∈ needs i -> forall l, held w' (l ++ rest)) as Hs.
    { intros c Hn l. apply held_app. left. exists c. destruct (reach_scoped R _ Ht) as [B _]. by apply B. }
    intros l1 j l2 En Hj. assert (j ∈ new) as Hin by (rewrite En; set_solver).
    destruct E; try (exfalso; by in_new Hin); try (apply Hi; done).
    + right. right. exists t. wsimpl. rewrite elem_of_app, elem_of_list_singleton. by right.
    + right. left. assert (IDisconnect KReport ∈ l2); [|apply elem_of_app; by left].
      repeat (destruct l1 as [|x l1]; [injection En as <- <-; try done; set_solver|injection En as <- En]). by destruct l1.
    + apply (Hs c). cbn. apply elem_of_list_here.
    + destruct call; try (exfalso; by in_new Hin). by apply Hi.
    + rewrite !elem_of_app, elem_of_list_singleton, elem_of_list_fmap in Hin. destruct Hin as [->|[(q & -> & _)|[Hin|Hin]]]; [done|done| |].
      * apply elem_of_list_singleton in Hin as ->. destruct call; try done. by apply Hi.
      * exfalso. destruct u as [[]|]; in_new Hin.
Qed.
Lemma agg_once ths w t k n u t' u' : reach (ths, w) -> EAgg t k n u ∈ w_trace w -> EAgg t' k n u' ∈ w_trace w -> t = t' /\ u = u'.
Proof.
  intros R H1 H2. assert (NoDup (agg_numbers k (w_trace w))) as N by (rewrite (agg_numbered k R); apply NoDup_seq).
  assert (EAgg t k n u = EAgg t' k n u') as [= -> ->]; [|done].
  eapply nodup_bind_elem with (b := n); [exact N|done|done| |]; cbn; rewrite decide_True by done; apply elem_of_list_here.
Qed.
Lemma agg_number_lt ths w t k n u : reach (ths, w) -> EAgg t k n u ∈ w_trace w -> is_Some (calls k (w_aggs w) !! n).
Proof.
  intros R H. assert (n ∈ agg_numbers k (w_trace w)) as Hn.
  { unfold agg_numbers. apply elem_of_list_bind. eexists. split; [|exact H]. cbn. rewrite decide_True by done. apply elem_of_list_here. }
  rewrite (agg_numbered k R), elem_of_seq in Hn. apply lookup_lt_is_Some. lia.
Qed.
Lemma disconnect_quiet ths w t rest : reach (ths, w) -> w_crash w = None -> ths !! t = Some (IDisconnect KReport :: rest) -> (forall t', ETick t' ∉ w_trace w) ->
  forall t' n u, EAgg t' KReport n u ∈ w_trace w -> EAggReturn t' KReport n ∈ w_trace w.
Proof.
  intros R Hc Ht Hk t' n u Hn. pose proof (reach_ending R) as I.
  assert (w_closing w = true) as Hcl. { by eapply (en_ender I); [exact Ht|apply elem_of_list_here|]. }
  assert (forall t1 st m, ths !! t1 = Some st -> IAggReturn KReport m ∉ st) as Hno.
  { intros t1 st m H1 H2. apply elem_of_list_split in H2 as (l1 & l2 & ->). pose proof (below_elem _ _ _ _ (reach_anchored R _ H1)) as Ha. destruct (Ha eq_refl) as [(c & Hr)|[Hd|(t2 & Hd)]].
    - pose proof (en_closing I Hcl) as Ho. assert (c ∈ w_open w) as Hin; [|rewrite Ho in Hin; by apply elem_of_nil in Hin]. rewrite <- (en_rets I). apply all_elem.
      exists t1, (l1 ++ IAggReturn KReport m :: l2), (IReturn c). split; [done|]. split; [set_solver|apply elem_of_list_here].
    - pose proof (en_once I) as N. pose proof (all_step shuts _ _ [] Ht) as P. cbn in P. rewrite app_nil_r in P. rewrite <- P in N. apply NoDup_app in N as (_ & N & _).
      apply (N KReport); [|apply elem_of_list_here]. apply all_elem. destruct (decide (t1 = t)) as [->|Ne].
      + rewrite Ht in H1. injection H1 as E. destruct l1 as [|x l1]; [done|]. injection E as _ E. exists t, rest, (IDisconnect KReport). split; [by apply list_lookup_insert; eapply lookup_lt_Some|]. split; [|apply elem_of_list_here].
        rewrite E. set_solver.
      + exists t1, (l1 ++ IAggReturn KReport m :: l2), (IDisconnect KReport). split; [by rewrite list_lookup_insert_ne|]. split; [set_solver|apply elem_of_list_here].
    - by apply (Hk t2). }
  destruct (agg_number_lt R Hn) as [[call r] Hcall]. pose proof (reach_delivery R Hc KReport n) as D. unfold delivery in D. rewrite Hcall in D.
  destruct D as (t0 & st & u0 & H1 & H2 & H3 & _ & H5). destruct (agg_once R Hn H2) as [<- _].
  assert (None ∈ ((fun x => item_of x.2) <$> handled KReport n (w_trace w)) ++ (st ≫= todo KReport n)) as Hin by (rewrite H5; set_solver).
  apply elem_of_app in Hin as [Hin|Hin].
  - apply elem_of_list_fmap in Hin as ([t1 f] & Hf & Hin). destruct f; try done. rewrite Forall_forall in H3. specialize (H3 _ Hin). cbn in H3. subst t1.
    apply elem_of_list_bind in Hin as (ev & Hev & Hin). destruct ev as [| |t1 k1 n1 q1|t1 k1 n1 q1|t1 k1 n1| | | | | | | |]; cbn in Hev; try (by apply elem_of_nil in Hev); case_bool_decide as Hb; try (by apply elem_of_nil in Hev); apply elem_of_list_singleton in Hev; try done.
    injection Hev as ->. destruct Hb as [-> ->]. done.
  - apply elem_of_list_bind in Hin as (j & Hj & Hin). exfalso. destruct j; cbn in Hj; try (by apply elem_of_nil in Hj); case_bool_decide as Hb; try (by apply elem_of_nil in Hj); apply elem_of_list_singleton in Hj; try done.
    destruct Hb as [-> ->]. by eapply Hno.
Qed.
Definition quiet_disconnect tr ev : Prop :=
  match ev with
  | EDisconnect _ KReport => (forall t', ETick t' ∉ tr) -> forall t' n u, EAgg t' KReport n u ∈ tr -> EAggReturn t' KReport n ∈ tr
  | _ => True
  end.
Lemma reach_quiet ths w : reach (ths, w) -> each_event quiet_disconnect (w_trace w).
Proof.
  revert ths w. refine (reach_ind' (fun ths w => each_event quiet_disconnect (w_trace w)) _ _ _); [|done|].
  - intros a _ l1 ev l2 E. by destruct l1.
  - intros ths w t i rest new w' R IH Hc Ht E. destruct E; wsimpl; try done; repeat apply each_event_snoc; try done.
    destruct k; try done. cbn. intros Hk. by eapply disconnect_quiet.
Qed.
Hypothesis Hclk : proper_clock (clk KReport).
Lemma destroyed_no_timer ths w t : reach (ths, w) -> w_crash w = None -> EDisconnect t KReport ∈ w_trace w -> (forall t', ETick t' ∉ w_trace w) ->
  dropped KReport (w_trace w) = [] /\ sent_by_flush KReport (w_trace w) ≡ₚ RqReport <$> rflushed (ag_hr (w_aggs w)) /\
  exists gs, Forall2 (merges ord md5 (cf_reports cf)) gs (ops_of (rflushed (ag_hr (w_aggs w)))) /\ split_into ord md5 (accepted (ag_hr (w_aggs w))) gs.
Proof.
  intros R Hc (l1 & l2 & E)%elem_of_list_split Hk. eapply destroyed_reports; [done|done|done|exact E|]. refine (reach_quiet R _ _ _ E _).
  intros t' H. apply (Hk t'). rewrite E. apply elem_of_app. by left.
Qed.
End quiet.
