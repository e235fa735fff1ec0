(** The client has no deadlock, except one. *)
From Verif Require Import Base Proto Signature OpAgg Lru Timeout Agg CheckAgg CheckAggSpec QuotaAgg QuotaAggSpec ReportAgg ReportAggSpec Client ClientSpec ClientInv ClientCalls ClientStage ClientFlush ClientLocks.
From stdpp Require Import gmap list.
Local Open Scope Z_scope.
Set Implicit Arguments.

Section live.
Variable debug : bool.
Variable ord : hash_order.
Variable md5 : string -> string.
Variable clk : kind -> nat -> Z.
Variable cf : client_config.
Notation reach := (reach debug ord md5 clk cf).
Notation exec := (exec debug ord md5 clk cf).
Notation step := (step debug ord md5 clk cf).
Notation agg_step := (agg_step debug ord md5 clk cf).
Notation estep := (estep debug ord md5 clk cf).
Notation live := (live debug ord md5 clk cf).
Notation bodies_return := (bodies_return debug ord md5 clk cf).
Implicit Types (w : world) (t : nat) (i : instr) (ths : list (list instr)) (tr : list event).

(** Only these instructions can wait. *)
Definition waits i : Prop := match i with IAgg _ _ | IBody _ _ | IFlush _ _ _ | IDisconnect _ | IWait _ => True | _ => False end.
Lemma exec_live ths w t ch i rest x : w_crash w = None -> ths !! t = Some (i :: rest) -> exec t ch i w = Some x -> live ths w t.
Proof. intros Hc Ht E. destruct x as [new w']. eapply live_runs with (ch := ch). unfold Client.step. cbn [fst snd]. by rewrite Hc, Ht, E. Qed.
Lemma runs ths w t i rest : w_crash w = None -> ths !! t = Some (i :: rest) -> ~ waits i -> live ths w t.
Proof.
  intros Hc Ht Hw. destruct i; try (exfalso; by apply Hw).
  all: try (match goal with H : _ !! _ = Some (?i :: _) |- _ => destruct (touches w i && negb (w_alive w)) eqn:E1 end;
    (eapply exec_live with (ch := Go); [done|done|]; unfold Client.exec; rewrite E1; reflexivity)).
  - eapply exec_live with (ch := Leave); [done|done|]. reflexivity.
  - destruct (touches w (IGate c a) && negb (w_alive w)) eqn:E1, (has_transport cf a) eqn:E2; (eapply exec_live with (ch := Go); [done|done|]; unfold Client.exec; rewrite E1, ?E2; reflexivity).
  - destruct (touches w (IInvoke k n q) && negb (w_alive w)) eqn:E1, (w_connected w k) eqn:E2, (cf_transport cf k) eqn:E3;
      (eapply exec_live with (ch := Go); [done|done|]; unfold Client.exec; rewrite E1, ?E2, ?E3; reflexivity).
Qed.
Lemma body_runs ths w t call u rest : w_crash w = None -> bodies_return ths w -> ths !! t = Some (IBody call u :: rest) -> live ths w t.
Proof.
  intros Hc HB Ht. destruct (HB _ _ _ _ Ht) as (fuel & a & r & E). eapply exec_live with (ch := Fuel fuel); [done|done|]. unfold Client.exec. cbn [touches andb]. by rewrite E.
Qed.
Lemma cache_live ths w t k : reach (ths, w) -> w_crash w = None -> bodies_return ths w -> w_cache w k = Some t -> live ths w t.
Proof.
  intros R Hc HB E. destruct (proj2 (reach_owned R) k) as [_ H2]. apply H2 in E as Hlt. apply lookup_lt_is_Some_2 in Hlt as [st Ht].
  apply (cache_owner _ _ R Ht) in E as (i & Hi & Hl). pose proof (reach_no_cache R _ Ht) as B.
  destruct st as [|j st]; [by apply elem_of_nil in Hi|]. destruct B as [B _]. apply elem_of_cons in Hi as [->|Hi].
  - destruct j; try done; [by eapply body_runs|]. eapply runs; [done|done|]. auto.
  - exfalso. unfold no_cache in B. rewrite forallb_forall in B. apply elem_of_list_In in Hi. apply B in Hi. by destruct i.
Qed.
Lemma agg_live ths w t call u rest : reach (ths, w) -> w_crash w = None -> bodies_return ths w -> ths !! t = Some (IAgg call u :: rest) -> live ths w t.
Proof.
  intros R Hc HB Ht. destruct (w_cache w (call_kind call)) as [t'|] eqn:E.
  - eapply live_cache; [done|done|]. by eapply cache_live.
  - eapply exec_live with (ch := Go); [done|done|]. unfold Client.exec. cbn [touches andb]. by rewrite E.
Qed.
(** The thread waits for a mutex that it holds itself. *)
Definition self_deadlock ths w t : Prop := exists n q rest, ths !! t = Some (IFlush KQuota n q :: rest) /\ w_callback w KQuota = Some t.
Lemma callback_live ths w t k : reach (ths, w) -> w_crash w = None -> bodies_return ths w -> (forall t', ~ self_deadlock ths w t') -> w_callback w k = Some t -> live ths w t.
Proof.
  intros R Hc HB HS E. destruct (proj1 (reach_owned R) k) as [_ H2]. apply H2 in E as Hlt. apply lookup_lt_is_Some_2 in Hlt as [st Ht].
  pose proof E as E'. apply (callback_owner _ _ R Ht) in E as Hi. pose proof (reach_guarded R _ Ht) as B.
  destruct st as [|j st]; [by apply elem_of_nil in Hi|]. destruct B as [B _]. apply elem_of_cons in Hi as [<-|Hi]; [eapply runs; [done|done|]; auto|].
  apply B in Hi. destruct j; cbn in Hi; try done; try (eapply runs; [done|done|]; by auto).
  - by eapply agg_live.
  - by eapply body_runs.
  - destruct Hi as [-> ->]. exfalso. apply (HS t). exists n, q, st. done.
Qed.
Lemma wait_started ths w : reach (ths, w) -> each (fun _ i => match i with IWait c => c ∈ started (w_trace w) | _ => True end) ths.
Proof.
  revert ths w. refine (reach_ind' (fun ths w => each (fun _ i => match i with IWait c => c ∈ started (w_trace w) | _ => True end) ths) _ _ _).
  - by intros a _ t st i H.
  - intros ths w _ IH _. by apply each_spawn.
  - intros ths w t i rest new w' R IH _ Ht E.
    assert (forall c, c ∈ started (w_trace w) -> c ∈ started (w_trace w')) as Hm by (intros c Hc; destruct E; wsimpl; rewrite ?started_snoc, ?elem_of_app; auto).
    eapply each_step; [exact IH|done| |].
    + intros t' st j _ _. destruct j; auto.
    + intros j Hj. destruct j; try done. destruct E; try (by apply elem_of_nil in Hj); try (by apply elem_of_list_singleton in Hj).
      * wsimpl. rewrite started_snoc. unfold api_code in Hj. destruct (ap_blocking a); cbn in Hj; rewrite ?elem_of_cons, elem_of_nil in Hj; set_solver.
      * rewrite !elem_of_cons, elem_of_nil in Hj. naive_solver.
      * cbn in Hj. rewrite !elem_of_cons, elem_of_nil in Hj. naive_solver.
      * cbn in Hj. rewrite !elem_of_cons, elem_of_nil in Hj. naive_solver.
      * rewrite !elem_of_app in Hj. destruct Hj as [Hj|[Hj|[Hj|Hj]]].
        -- by apply elem_of_list_singleton in Hj.
        -- apply elem_of_list_fmap in Hj as (q & ? & Hq). done.
        -- by apply elem_of_list_singleton in Hj.
        -- destruct u as [[c' a0]|]; [|by apply elem_of_nil in Hj]. by apply elem_of_list_singleton in Hj.
      * rewrite !elem_of_cons, elem_of_nil in Hj. naive_solver.
      * unfold callback_code in Hj. destruct q; cbn in Hj; rewrite ?elem_of_cons, elem_of_nil in Hj; naive_solver.
      * unfold after_code in Hj. destruct (status_eqb _ _), (ap_request a); cbn in Hj; rewrite ?elem_of_cons, elem_of_nil in Hj; naive_solver.
      * destruct f; cbn in Hj; try destruct (status_eqb _ _); cbn in Hj; rewrite ?elem_of_cons, elem_of_nil in Hj; naive_solver.
Qed.
Lemma done_event c tr : c ∈ done tr <-> exists t s r, EDone t c s r ∈ tr.
Proof.
  unfold done. rewrite elem_of_list_bind. split.
  - intros (ev & H1 & H2). destruct ev; try (by apply elem_of_nil in H1). apply elem_of_list_singleton in H1 as ->. eauto.
  - intros (t & s & r & H). eexists. split; [|exact H]. by apply elem_of_list_singleton.
Qed.
Lemma all_live ths w t st : reach (ths, w) -> w_crash w = None -> bodies_return ths w -> (forall t', ~ self_deadlock ths w t') ->
  ths !! t = Some st -> st <> [] -> live ths w t.
Proof.
  intros R Hc HB HS. assert (forall t i rest, ths !! t = Some (i :: rest) -> match i with IWait _ => False | _ => True end -> live ths w t) as L.
  { intros t' i rest Ht Hi. destruct i; try (eapply runs; [done|done|]; by auto); try done.
    - by eapply agg_live.
    - by eapply body_runs.
    - destruct (w_callback w k) as [t0|] eqn:E; [eapply live_flush; [done|done|]; by eapply callback_live|].
      eapply exec_live with (ch := Go); [done|done|]. unfold Client.exec. cbn [touches andb]. by rewrite E.
    - destruct (w_callback w k) as [t0|] eqn:E; [eapply live_disconnect; [done|done|]; by eapply callback_live|].
      eapply exec_live with (ch := Go); [done|done|]. unfold Client.exec. cbn [touches andb]. by rewrite E. }
  intros Ht Hne. destruct st as [|i rest]; [done|]. destruct i; try (by eapply L). clear Hne.
  pose proof (wait_started R _ Ht (elem_of_list_here _ _)) as Hs. cbn in Hs. rewrite <- (one_place R Hc), !elem_of_app in Hs. destruct Hs as [Hs|[Hs|Hs]].
  - apply all_elem in Hs as (t' & st & i & H1 & H2 & H3). eapply live_wait; [done|done|done|done|].
    destruct st as [|j st]; [by apply elem_of_nil in H2|]. eapply L; [done|]. destruct j; try done.
    destruct (reach_tidy R _ H1) as [B _]. specialize (B eq_refl). apply elem_of_cons in H2 as [->|H2]; [by apply elem_of_nil in H3|].
    assert (c ∈ st ≫= tok) as H4 by (apply elem_of_list_bind; eauto). rewrite B in H4. by apply elem_of_nil in H4.
  - apply elem_of_list_bind in Hs as (p & H1 & H2). by eapply live_server.
  - eapply exec_live with (ch := Go); [done|done|]. unfold Client.exec. cbn [touches andb]. apply done_event, done_in in Hs. by rewrite Hs.
Qed.

(** Unless the quota transport completes in place, the quota callback does nothing but call it. *)
Definition lean i : Prop :=
  match i with
  | IAgg _ _ | IBody _ _ | IUnlock _ | IFlush _ _ _ | IAggReturn _ _ | ICompleted _ (FlushedQuota _) _ _ => False
  | _ => True
  end.
Lemma in_place_mono w w' t i new : estep t w i new w' -> quota_flush_in_place (w_trace w) -> quota_flush_in_place (w_trace w').
Proof.
  intros E (t1 & n & m & q & t2 & s & r & H1 & H2). assert (forall ev, ev ∈ w_trace w -> ev ∈ w_trace w') as Hev by (intros ev H; destruct E; wsimpl; rewrite ?elem_of_app; auto).
  exists t1, n, m, q, t2, s, r. auto.
Qed.
Definition leanly (i : instr) (l : list instr) : Prop := forall k, IUnlockCallback k ∈ l -> lean i.
Lemma reach_lean ths w : reach (ths, w) -> ~ quota_flush_in_place (w_trace w) -> belows leanly ths.
Proof.
  refine (reach_ind' (fun ths w => ~ quota_flush_in_place (w_trace w) -> belows leanly ths) _ _ _ (ths := ths) (w := w)); clear ths w.
  - intros a _ _. by intros t st H.
  - intros ths w _ IH _ Hp. apply belows_spawn; [by apply IH|]. done.
  - intros ths w t i rest new w' R IH _ Ht E Hp. assert (~ quota_flush_in_place (w_trace w)) as Hp0 by (intros H; by eapply Hp, in_place_mono). specialize (IH Hp0).
    assert (typed t i) as T by (eapply (reach_typed R); [done|apply elem_of_list_here]).
    assert (guarded i rest) as G by apply (reach_guarded R _ Ht).
    eapply belows_step; [done|done|]. intros H1 H2.
    assert ((exists k n q, i = IFlush k n q) \/ ~ exists k n q, i = IFlush k n q) as [(k & n & q & ->)|Nf] by (destruct i; naive_solver).
    { inversion E; subst; [done|]. cbn. by repeat split. }
    assert (forall k, IUnlockCallback k ∉ new) as Hn. { intros k Hk. destruct (new_unlock E Hk) as (n & q & ->). apply Nf. eauto. }
    assert (forall k j, IUnlockCallback k ∈ rest -> j ∈ new -> lean j) as Hin.
    { intros k j Hk Hj. specialize (H1 _ Hk). specialize (G _ Hk). destruct E; try (by apply elem_of_nil in Hj); try done.
      - unfold callback_code in Hj. destruct q; cbn in Hj; rewrite ?elem_of_cons, elem_of_nil in Hj; naive_solver.
      - destruct o as [|k' n]; [done|]. destruct G as (-> & G1 & ->). apply elem_of_list_singleton in Hj as ->. destruct q; try done. cbn in G1. subst k.
        apply Hp. exists t, (w_sends w), n, (RqQuota q), t, s, r. split; apply elem_log; [left; apply elem_log; by right|by right].
      - destruct f; cbn in G, H1, Hj; try done; by apply elem_of_nil in Hj. }
    clear E Nf Ht. induction new as [|j new IHn]; [done|]. split.
    + intros k [Hk|Hk]%elem_of_app; [exfalso; apply (Hn k); by apply elem_of_list_further|]. eapply Hin; [done|]. apply elem_of_list_here.
    + apply IHn; [intros k Hk; apply (Hn k); by apply elem_of_list_further|]. intros k j' Hk Hj. eapply Hin; [done|]. by apply elem_of_list_further.
Qed.
Lemma no_self_deadlock ths w : reach (ths, w) -> ~ quota_flush_in_place (w_trace w) -> forall t, ~ self_deadlock ths w t.
Proof.
  intros R Hp t (n & q & rest & Ht & E). destruct (reach_lean R Hp _ Ht) as [B _]. apply (callback_owner _ _ R Ht) in E.
  apply elem_of_cons in E as [E|E]; [done|]. by apply B in E.
Qed.
(** A thread that waits for its own mutex is not live. *)
Lemma self_deadlock_dead ths w t : self_deadlock ths w t -> ~ live ths w t.
Proof.
  intros (n & q & rest & Ht & E) L. induction L; try congruence.
  - unfold Client.step in H. cbn [fst snd] in H. destruct (w_crash w); [done|]. rewrite Ht in H. unfold Client.exec in H. cbn [touches andb] in H.
    destruct ch; try done. by rewrite E in H.
  - assert (k = KQuota) as -> by congruence. assert (t' = t) as -> by congruence. by apply IHL.
Qed.
End live.
