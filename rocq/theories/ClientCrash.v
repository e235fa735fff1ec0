(** Threads that wait for themselves, and null transports. *)
From Verif Require Import Base Proto Signature OpAgg Lru Timeout Agg CheckAgg CheckAggSpec QuotaAgg QuotaAggSpec ReportAgg ReportAggSpec Client ClientSpec ClientInv ClientCalls ClientStage ClientLocks ClientLive ClientFlush ClientFacts.
From stdpp Require Import gmap list.
Local Open Scope Z_scope.
Set Implicit Arguments.

Section crash.
Variable debug : bool.
Variable ord : hash_order.
Variable md5 : string -> string.
Variable clk : kind -> nat -> Z.
Variable cf : client_config.
Notation step := (step debug ord md5 clk cf).
Notation reach := (reach debug ord md5 clk cf).
Notation estep := (estep debug ord md5 clk cf).
Notation later := (later debug ord md5 clk cf).
Implicit Types (w : world) (t : nat) (i : instr) (ths : list (list instr)) (tr : list event).

Lemma later_reach s s' : reach s -> later s s' -> reach s'.
Proof. intros R. induction 1 as [|s' t ch s'' _ IH E]; [done|]. by econstructor. Qed.
Lemma callback_kept t w i new w' k t0 : estep t w i new w' -> w_callback w k = Some t0 -> i <> IUnlockCallback k -> w_callback w' k = Some t0.
Proof.
  intros E H Hn. destruct E; cbn; try done.
  - unfold fset. case_decide; [|done]. congruence.
  - unfold fset. case_decide; [|done]. congruence.
Qed.
Lemma stuck_step ths w t k n q rest t' ch ths' w' : reach (ths, w) -> ths !! t = Some (IFlush k n q :: rest) -> w_callback w k = Some t ->
  step t' ch (ths, w) = Some (ths', w') -> ths' !! t = Some (IFlush k n q :: rest) /\ w_callback w' k = Some t.
Proof.
  intros R Ht Hc E. apply step_estep in E as (_ & [[= -> ->]|(i & rest' & new & w1 & Hi & E & [= -> ->])]).
  - split; [|done]. apply lookup_app_l_Some. exact Ht.
  - destruct (decide (t' = t)) as [->|Hne].
    + rewrite Ht in Hi. injection Hi as <- <-. inversion E; subst; [done|congruence].
    + split; [by rewrite list_lookup_insert_ne|]. eapply callback_kept; [exact E|exact Hc|]. intros ->.
      apply Hne. assert (w_callback w k = Some t') as H; [|congruence].
      eapply callback_owner; [exact R|exact Hi|constructor].
Qed.
(** A thread that waits for the callback mutex that it holds never goes on. *)
Lemma stuck_forever ths w t k n q rest ths' w' : reach (ths, w) -> ths !! t = Some (IFlush k n q :: rest) -> w_callback w k = Some t ->
  later (ths, w) (ths', w') -> ths' !! t = Some (IFlush k n q :: rest) /\ w_callback w' k = Some t.
Proof.
  intros R Ht Hc L.
  assert (forall s, later (ths, w) s -> s.1 !! t = Some (IFlush k n q :: rest) /\ w_callback s.2 k = Some t) as G; [|exact (G _ L)].
  clear ths' w' L. intros s L. induction L as [|[ths1 w1] t' ch [ths2 w2] L IH E]; [done|]. cbn [fst snd] in *. destruct IH as [IH1 IH2].
  eapply stuck_step; [exact (later_reach R L)|exact IH1|exact IH2|exact E].
Qed.
(** A null transport is only called if it was not supplied. *)
Lemma null_crash ths w k : reach (ths, w) -> w_crash w = Some (NullTransport k) -> cf_transport cf k = false.
Proof.
  revert ths w. refine (reach_ind' (fun ths w => w_crash w = Some (NullTransport k) -> cf_transport cf k = false) _ _ _).
  - done.
  - done.
  - intros ths w t j rest new w' R _ Hc Ht E H. destruct E; cbn in H; try congruence.
Qed.
(** Without a timer function nothing ticks. *)
Lemma no_tick ths w : cf_timer cf = false -> reach (ths, w) -> w_timer w = false /\ forall t, ETick t ∉ w_trace w.
Proof.
  intros Hf. revert ths w. refine (reach_ind' (fun ths w => w_timer w = false /\ forall t, ETick t ∉ w_trace w) _ _ _).
  - intros a _. cbn. unfold timer_interval. rewrite Hf. cbn. split; [done|]. intros t H. by apply elem_of_nil in H.
  - done.
  - intros ths w t i rest new w' R [IH1 IH2] _ _ E. destruct E; wsimpl; try done; try congruence; (split; [done|]); intros t1;
      rewrite ?elem_of_app, ?elem_of_list_singleton; intros Hin; destruct_or? Hin; try done; by eapply IH2.
Qed.
End crash.
