(** Invariants of the client, part 1: the steps as a relation, measures over all threads, calls and completions. *)
From Verif Require Import Base Proto Signature OpAgg Lru Timeout Agg CheckAgg CheckAggSpec QuotaAgg QuotaAggSpec ReportAgg ReportAggSpec Client.
From stdpp Require Import gmap list.
Local Open Scope Z_scope.
Set Implicit Arguments.

Section inv.
Variable debug : bool.
Variable ord : hash_order.
Variable md5 : string -> string.
Variable clk : kind -> nat -> Z.
Variable cf : client_config.
Notation exec := (exec debug ord md5 clk cf).
Notation step := (step debug ord md5 clk cf).
Notation reach := (reach debug ord md5 clk cf).
Notation agg_step := (agg_step debug ord md5 clk cf).
Implicit Types (w : world) (t : nat) (i : instr) (ths : list (list instr)).

(** [exec] as a relation. *)
Inductive estep t w : instr -> list instr -> world -> Prop :=
| es_crash i : touches w i = true -> w_alive w = false -> estep t w i [] (set_crash (UseAfterDestroy i) w)
| es_leave : estep t w IUser [] w
| es_call a : w_alive w = true -> w_closing w = false ->
    estep t w IUser (api_code (w_calls w) a ++ [IUser]) (log (EStart t (w_calls w) a) (set_open (w_calls w :: w_open w) (set_calls (S (w_calls w)) w)))
| es_complete p s r n f : w_pending w !! p = Some (n, f) ->
    estep t w IUser [ICompleted n f s r; IUser] (log (ECompleted t n s r false) (set_pending (delete p (w_pending w)) w))
| es_tick : w_timer w = true -> estep t w IUser (tick_code ++ [IUser]) (log (ETick t) w)
| es_destroy : w_alive w = true -> w_closing w = false -> w_open w = [] ->
    estep t w IUser (destroy_code ++ [IUser]) (log (EDestroy t) (set_closing true w))
| es_count o c n : w_alive w = true -> estep t w (ICount o c n) [] (set_count (fset c (w_count w c + n) (w_count w)) w)
| es_gate c a : w_alive w = true -> has_transport cf a = true -> estep t w (IGate c a) [IAgg (agg_call_of (ap_request a)) (Some (c, a))] w
| es_gate_null c a : w_alive w = true -> has_transport cf a = false -> estep t w (IGate c a) [IDone c SInvalidArgument RpNone] w
| es_lock call u : w_cache w (call_kind call) = None ->
    estep t w (IAgg call u) [IBody call u] (set_cache (fset (call_kind call) (Some t) (w_cache w)) w)
| es_body call u fuel a r : agg_step fuel call (w_aggs w) = Ok (a, r) ->
    estep t w (IBody call u)
      ([IUnlock (call_kind call)] ++ (IFlush (call_kind call) (length (calls (call_kind call) (w_aggs w))) <$> rs_flushed r) ++
       [IAggReturn (call_kind call) (length (calls (call_kind call) (w_aggs w)))] ++
       (match u with Some (c, a) => [IAfter c a (length (calls (call_kind call) (w_aggs w))) r] | None => [] end))
      (log (EAgg t (call_kind call) (length (calls (call_kind call) (w_aggs w))) (fst <$> u)) (set_aggs a w))
| es_unlock k : estep t w (IUnlock k) [] (set_cache (fset k None (w_cache w)) w)
| es_flush k n q : w_callback w k = None ->
    estep t w (IFlush k n q) [IInvoke k n q; IUnlockCallback k] (set_callback (fset k (Some t) (w_callback w)) w)
| es_invoke k n q : w_alive w = true -> w_connected w k = true -> cf_transport cf k = true ->
    estep t w (IInvoke k n q) (callback_code k n q) (log (ECallback t k n q) w)
| es_null k n q : w_alive w = true -> w_connected w k = true -> cf_transport cf k = false -> estep t w (IInvoke k n q) [] (set_crash (NullTransport k) w)
| es_drop k n q : w_connected w k = false -> estep t w (IInvoke k n q) [] (log (EDropped t k n q) w)
| es_unlock_cb k : estep t w (IUnlockCallback k) [] (set_callback (fset k None (w_callback w)) w)
| es_agg_return k n : estep t w (IAggReturn k n) [] (log (EAggReturn t k n) w)
| es_after c a n r : estep t w (IAfter c a n r) (after_code c a r) w
| es_send o q f : estep t w (ITransport o q f) []
    (log (ETransport t (w_sends w) o q) (set_pending (w_pending w ++ [(w_sends w, f)]) (set_sends (S (w_sends w)) w)))
| es_in_place o q f s r : estep t w (ITransport o q f) [ICompleted (w_sends w) f s r]
    (log (ECompleted t (w_sends w) s r true) (log (ETransport t (w_sends w) o q) (set_sends (S (w_sends w)) w)))
| es_completed n f s r : (forall q, f = FlushedQuota q -> w_alive w = true) -> estep t w (ICompleted n f s r) (completed_code f s r) w
| es_done c s r : estep t w (IDone c s r) [IUser] (log (EDone t c s r) w)
| es_wait c : (exists t' s r, EDone t' c s r ∈ w_trace w) -> estep t w (IWait c) [] w
| es_return c : estep t w (IReturn c) [] (log (EReturn t c) (set_open (filter (fun c' => c' <> c) (w_open w)) w))
| es_disconnect k : w_callback w k = None -> estep t w (IDisconnect k) [] (log (EDisconnect t k) (set_connected (fset k false (w_connected w)) w))
| es_stop : estep t w IStopTimer [] (set_timer false w)
| es_free : estep t w IFree [] (log (EFreed t) (set_alive false w)).

Lemma done_in (c : nat) (tr : list event) : existsb (fun ev => match ev with EDone _ c' _ _ => Nat.eqb c' c | _ => false end) tr = true <->
  exists t' s r, EDone t' c s r ∈ tr.
Proof.
  rewrite existsb_exists. split.
  - intros (ev & Hin & H). destruct ev; try done. apply Nat.eqb_eq in H as ->. apply elem_of_list_In in Hin. eauto.
  - intros (t' & s & r & H). eexists. split; [by apply elem_of_list_In|]. apply Nat.eqb_refl.
Qed.

Lemma exec_estep t ch i w new w' : exec t ch i w = Some (new, w') -> estep t w i new w'.
Proof.
  unfold Client.exec. destruct (touches w i && negb (w_alive w)) eqn:Et.
  { intros [= <- <-]. apply andb_true_iff in Et as [H1 H2%negb_true_iff]. by constructor. }
  assert (Hal : touches w i = true -> w_alive w = true).
  { intros H. rewrite H in Et. by apply negb_false_iff in Et. } clear Et.
  destruct i, ch; cbn [touches] in Hal; try done; intros H.
  - injection H as <- <-. constructor.
  - destruct (w_alive w && negb (w_closing w)) eqn:E; [|done]. injection H as <- <-. apply andb_true_iff in E as [E1 E2%negb_true_iff]. by constructor.
  - destruct (w_pending w !! p) as [[n f]|] eqn:E; [|done]. injection H as <- <-. by constructor.
  - destruct (w_timer w) eqn:E; [|done]. injection H as <- <-. by constructor.
  - destruct (w_alive w && negb (w_closing w) && bool_decide (w_open w = [])) eqn:E; [|done]. injection H as <- <-.
    apply andb_true_iff in E as [E E3%bool_decide_eq_true]. apply andb_true_iff in E as [E1 E2%negb_true_iff]. by constructor.
  - injection H as <- <-. constructor. auto.
  - destruct (has_transport cf a) eqn:E; injection H as <- <-; constructor; auto.
  - destruct (w_cache w (call_kind call)) eqn:E; [done|]. injection H as <- <-. by constructor.
  - destruct (agg_step fuel call (w_aggs w)) as [[a r]| | |] eqn:E; try done. injection H as <- <-. by econstructor.
  - injection H as <- <-. constructor.
  - destruct (w_callback w k) eqn:E; [done|]. injection H as <- <-. by constructor.
  - destruct (w_connected w k) eqn:E; [destruct (cf_transport cf k) eqn:E2|]; injection H as <- <-; constructor; auto.
  - injection H as <- <-. constructor.
  - injection H as <- <-. constructor.
  - injection H as <- <-. constructor.
  - injection H as <- <-. constructor.
  - injection H as <- <-. constructor.
  - injection H as <- <-. constructor. intros q ->. auto.
  - injection H as <- <-. constructor.
  - destruct (existsb _ _) eqn:E; [|done]. injection H as <- <-. constructor. by apply done_in.
  - injection H as <- <-. constructor.
  - destruct (w_callback w k) eqn:E; [done|]. injection H as <- <-. by constructor.
  - injection H as <- <-. constructor.
  - injection H as <- <-. constructor.
Qed.

(** Induction over the steps of a client. *)
Lemma reach_ind' (P : list (list instr) -> world -> Prop) :
  (forall a, new_aggs ord clk cf = Ok a -> P [] (new_world cf a)) ->
  (forall ths w, reach (ths, w) -> P ths w -> w_crash w = None -> P (ths ++ [[IUser]]) w) ->
  (forall ths w t i rest new w', reach (ths, w) -> P ths w -> w_crash w = None -> ths !! t = Some (i :: rest) -> estep t w i new w' -> P (<[t := new ++ rest]> ths) w') ->
  forall ths w, reach (ths, w) -> P ths w.
Proof.
  intros Hnew Hspawn Hstep. assert (forall s, reach s -> P s.1 s.2) as G; [|intros ths w; apply (G (ths, w))].
  intros s R. induction R as [a Ha|[ths w] t ch s' R IH E]; [by apply Hnew|]. cbn [fst snd] in IH. unfold Client.step in E. cbn [fst snd] in E.
  destruct (w_crash w) eqn:Ec; [done|]. destruct (ths !! t) as [[|i rest]|] eqn:Et; [done| |injection E as <-; by apply Hspawn].
  destruct (exec t ch i w) as [[new w']|] eqn:Ee; [|done]. injection E as <-. eapply Hstep; [exact R|done|done|done|]. by eapply exec_estep.
Qed.

(** ** Measures over all threads *)
Definition all {A} (f : instr -> list A) (ths : list (list instr)) : list A := ths ≫= fun st => st ≫= f.
Lemma all_step {A} (f : instr -> list A) ths t i rest new : ths !! t = Some (i :: rest) ->
  all f (<[t := new ++ rest]> ths) ++ f i ≡ₚ all f ths ++ (new ≫= f).
Proof.
  intros E. unfold all. rewrite (insert_take_drop ths t (new ++ rest)) by (by eapply lookup_lt_Some).
  rewrite <- (take_drop_middle ths t (i :: rest) E) at 3. rewrite !bind_app, !bind_cons, !bind_app. cbn. solve_Permutation.
Qed.
Lemma all_spawn {A} (f : instr -> list A) ths : f IUser = [] -> all f (ths ++ [[IUser]]) = all f ths.
Proof. intros E. unfold all. rewrite bind_app. cbn. by rewrite E, app_nil_r. Qed.
Lemma all_elem {A} (f : instr -> list A) ths x : x ∈ all f ths <-> exists t st i, ths !! t = Some st /\ i ∈ st /\ x ∈ f i.
Proof.
  unfold all. rewrite elem_of_list_bind. split.
  - intros (st & H1 & H2). apply elem_of_list_bind in H1 as (i & H3 & H4). apply elem_of_list_lookup in H2 as (t & H2). by exists t, st, i.
  - intros (t & st & i & H1 & H2 & H3). exists st. split; [|by eapply elem_of_list_lookup_2]. apply elem_of_list_bind. by exists i.
Qed.
(** The same for numbers. *)
Definition sumZ (l : list Z) : Z := foldr Z.add 0 l.
Lemma sumZ_app l1 l2 : sumZ (l1 ++ l2) = sumZ l1 + sumZ l2.
Proof. unfold sumZ. induction l1 as [|x l1 IH]; cbn; [done|]. rewrite IH. lia. Qed.
Lemma sumZ_perm l1 l2 : l1 ≡ₚ l2 -> sumZ l1 = sumZ l2.
Proof. unfold sumZ. induction 1; cbn in *; lia. Qed.

(** ** The aggregators see a sequential history *)
Lemma agg_step_calls fuel call a a' r : agg_step fuel call a = Ok (a', r) ->
  calls (call_kind call) a' = calls (call_kind call) a ++ [(call, r)] /\ forall k, k <> call_kind call -> calls k a' = calls k a.
Proof.
  unfold Client.agg_step. destruct call as [c|c|c]; cbn [call_kind].
  - destruct (cstep _ _ _ _ _ _) as [[st res]| | |]; cbn [obind]; intros [= <- <-]. split; [|by intros []]. cbn [calls ag_hc]. by rewrite fmap_app.
  - destruct (qstep _ _ _ _ _ _ _ _) as [[st res]| | |]; cbn [obind]; intros [= <- <-]. split; [|by intros []]. cbn [calls ag_hq]. by rewrite fmap_app.
  - destruct (rstep _ _ _ _ _ _) as [[st res]| | |]; cbn [obind]; intros [= <- <-]. split; [|by intros []]. cbn [calls ag_hr]. by rewrite fmap_app.
Qed.
Definition sequential (a : aggs) : Prop :=
  creach ord md5 (clk KCheck) (cf_checks cf) (ag_check a) (ag_hc a) /\
  qreach debug ord md5 (clk KQuota) (cf_quotas cf) (ag_quota a) (ag_hq a) /\
  rreach ord md5 (clk KReport) (cf_reports cf) (ag_report a) (ag_hr a).
Lemma agg_step_sequential fuel call a a' r : sequential a -> agg_step fuel call a = Ok (a', r) -> sequential a'.
Proof.
  intros (H1 & H2 & H3). unfold Client.agg_step. destruct call as [c|c|c].
  - destruct (cstep _ _ _ _ _ _) as [[st res]| | |] eqn:E; cbn [obind]; intros [= <- <-]. repeat split; try done. by apply creach_step.
  - destruct (qstep _ _ _ _ _ _ _ _) as [[st res]| | |] eqn:E; cbn [obind]; intros [= <- <-]. repeat split; try done. apply qreach_step; [done|]. by exists fuel.
  - destruct (rstep _ _ _ _ _ _) as [[st res]| | |] eqn:E; cbn [obind]; intros [= <- <-]. repeat split; try done. by apply rreach_step.
Qed.
Lemma new_aggs_sequential a : new_aggs ord clk cf = Ok a -> sequential a /\ forall k, calls k a = [].
Proof.
  unfold new_aggs. destruct (NewCheckAggregator _ _ _) as [c| | |] eqn:E1; try done. cbn [obind].
  destruct (NewQuotaAggregator _ _ _) as [q| | |] eqn:E2; try done. cbn [obind]. destruct (NewReportAggregator _ _ _) as [r| | |] eqn:E3; try done. cbn [obind].
  intros [= <-]. split; [|by intros []]. repeat split; by constructor.
Qed.
Lemma reach_sequential ths w : reach (ths, w) -> sequential (w_aggs w).
Proof.
  revert ths w. apply reach_ind'.
  - intros a Ha. by apply new_aggs_sequential in Ha as [H _].
  - done.
  - intros ths w t i rest new w' _ IH _ _ E. destruct E; try exact IH. cbn. by eapply agg_step_sequential.
Qed.
End inv.
