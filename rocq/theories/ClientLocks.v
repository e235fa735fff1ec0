(** Invariants of the client, part 5: the mutexes, and what a thread still has to do while it holds one. *)
From Verif Require Import Base Proto Signature OpAgg Lru Timeout Agg CheckAgg CheckAggSpec QuotaAgg QuotaAggSpec ReportAgg ReportAggSpec Client ClientSpec ClientInv ClientCalls ClientStage ClientFlush.
From stdpp Require Import gmap list.
Local Open Scope Z_scope.
Set Implicit Arguments.

Section locks.
Variable debug : bool.
Variable ord : hash_order.
Variable md5 : string -> string.
Variable clk : kind -> nat -> Z.
Variable cf : client_config.
Notation reach := (reach debug ord md5 clk cf).
Notation agg_step := (agg_step debug ord md5 clk cf).
Notation estep := (estep debug ord md5 clk cf).
Implicit Types (w : world) (t : nat) (i : instr) (ths : list (list instr)) (tr : list event).

(** ** Flushed items are requests of the aggregator's kind *)
Definition typed (_ : nat) i : Prop :=
  match i with
  | IFlush k _ q | IInvoke k _ q => kind_of q = k
  | ITransport (FromFlush k _) q f => kind_of q = k /\ f = flush_done q
  | IAgg call (Some (c, a)) | IBody call (Some (c, a)) => call = agg_call_of (ap_request a)
  | _ => True
  end.
Lemma flushed_kind fuel call a a' r q : agg_step fuel call a = Ok (a', r) -> q ∈ rs_flushed r -> kind_of q = call_kind call.
Proof.
  unfold Client.agg_step. destruct call as [c|c|c]; cbn [call_kind].
  - destruct (cstep _ _ _ _ _ _) as [[st res]| | |]; cbn [obind]; intros [= <- <-]. cbn. intros (x & -> & _)%elem_of_list_fmap. done.
  - destruct (qstep _ _ _ _ _ _ _ _) as [[st res]| | |]; cbn [obind]; intros [= <- <-]. cbn. intros (x & -> & _)%elem_of_list_fmap. done.
  - destruct (rstep _ _ _ _ _ _) as [[st res]| | |]; cbn [obind]; intros [= <- <-]. cbn. intros (x & -> & _)%elem_of_list_fmap. done.
Qed.
Lemma estep_typed t w i new w' : estep t w i new w' -> typed t i -> forall j, j ∈ new -> typed t j.
Proof.
  intros E T j Hj. destruct E; try (by apply elem_of_nil in Hj); try (by apply elem_of_list_singleton in Hj as ->).
  - unfold api_code in Hj. destruct (ap_blocking a); cbn in Hj; rewrite ?elem_of_cons, elem_of_nil in Hj; naive_solver.
  - rewrite !elem_of_cons, elem_of_nil in Hj. naive_solver.
  - cbn in Hj. rewrite !elem_of_cons, elem_of_nil in Hj. naive_solver.
  - cbn in Hj. rewrite !elem_of_cons, elem_of_nil in Hj. naive_solver.
  - rewrite !elem_of_app in Hj. destruct Hj as [Hj|[Hj|[Hj|Hj]]].
    + by apply elem_of_list_singleton in Hj as ->.
    + apply elem_of_list_fmap in Hj as (q & -> & Hq). by eapply flushed_kind.
    + by apply elem_of_list_singleton in Hj as ->.
    + destruct u as [[c a0]|]; [|by apply elem_of_nil in Hj]. by apply elem_of_list_singleton in Hj as ->.
  - rewrite !elem_of_cons, elem_of_nil in Hj. naive_solver.
  - unfold callback_code in Hj. cbn in T. destruct q; cbn in Hj; rewrite ?elem_of_cons, elem_of_nil in Hj; naive_solver.
  - unfold after_code in Hj. destruct (status_eqb _ _), (ap_request a); cbn in Hj; rewrite ?elem_of_cons, elem_of_nil in Hj; naive_solver.
  - destruct f; cbn in Hj; try destruct (status_eqb _ _); cbn in Hj; rewrite ?elem_of_cons, elem_of_nil in Hj; naive_solver.
Qed.
Lemma reach_typed ths w : reach (ths, w) -> each typed ths.
Proof.
  revert ths w. refine (reach_ind' (fun ths w => each typed ths) _ _ _).
  - by intros a _ t st i H.
  - intros ths w _ IH _. by apply each_spawn.
  - intros ths w t i rest new w' _ IH _ Ht E. eapply each_step; [exact IH|done|done|]. eapply estep_typed; [done|]. eapply IH; [done|]. apply elem_of_list_here.
Qed.

(** ** The owners of the mutexes *)
Definition owned (own : kind -> option nat) (f : kind -> instr -> nat) ths : Prop :=
  forall k, (forall t st, ths !! t = Some st -> sum_list_with (f k) st = if decide (own k = Some t) then 1%nat else 0%nat) /\
    forall t, own k = Some t -> (t < length ths)%nat.
Lemma owned_spawn own f ths : owned own f ths -> (forall k, f k IUser = 0%nat) -> owned own f (ths ++ [[IUser]]).
Proof.
  intros H HU k. destruct (H k) as [H1 H2]. split.
  - intros t st [E|[Hl E]]%lookup_app_Some; [by apply H1|]. apply list_lookup_singleton_Some in E as [E <-]. cbn. rewrite HU.
    destruct (decide _) as [E2|]; [|done]. apply H2 in E2. lia.
  - intros t E. rewrite app_length. apply H2 in E. lia.
Qed.
Lemma owned_same own f ths t i rest new : owned own f ths -> ths !! t = Some (i :: rest) -> (forall k, sum_list_with (f k) new = f k i) ->
  owned own f (<[t := new ++ rest]> ths).
Proof.
  intros H Ht Hs k. destruct (H k) as [H1 H2]. split; [|by rewrite insert_length].
  intros t' st [[-> ->]|[Ne E]]%ins_lookup; [|by apply H1]. rewrite sum_list_with_app, Hs. by apply (H1 _ _ Ht).
Qed.
Lemma owned_acquire own f ths t i rest new k0 : owned own f ths -> ths !! t = Some (i :: rest) -> own k0 = None ->
  (forall k, sum_list_with (f k) new = f k i + if decide (k = k0) then 1 else 0)%nat -> owned (fset k0 (Some t) own) f (<[t := new ++ rest]> ths).
Proof.
  intros H Ht Hn Hs k. destruct (H k) as [H1 H2]. rewrite insert_length. unfold fset. destruct (decide (k = k0)) as [->|Nk].
  - split; [|intros t' [= <-]; by eapply lookup_lt_Some]. intros t' st [[-> ->]|[Ne E]]%ins_lookup.
    + rewrite sum_list_with_app, Hs. specialize (H1 _ _ Ht). cbn in H1. rewrite decide_False in H1 by congruence. rewrite !decide_True by done. lia.
    + rewrite (H1 _ _ E), !decide_False by congruence. done.
  - split; [|done]. intros t' st [[-> ->]|[Ne E]]%ins_lookup; [|by apply H1].
    rewrite sum_list_with_app, Hs, (decide_False (P := k = k0)) by done. specialize (H1 _ _ Ht). cbn in H1. lia.
Qed.
Lemma owned_release own f ths t i rest new k0 : owned own f ths -> ths !! t = Some (i :: rest) ->
  (forall k, sum_list_with (f k) new + (if decide (k = k0) then 1 else 0) = f k i)%nat -> owned (fset k0 None own) f (<[t := new ++ rest]> ths).
Proof.
  intros H Ht Hs k. destruct (H k) as [H1 H2]. rewrite insert_length. unfold fset. destruct (decide (k = k0)) as [->|Nk].
  - specialize (Hs k0). rewrite decide_True in Hs by done. pose proof (H1 _ _ Ht) as H3. cbn in H3. destruct (decide (own k0 = Some t)) as [Eo|]; [|lia].
    split; [|done]. intros t' st [[-> ->]|[Ne E]]%ins_lookup.
    + rewrite sum_list_with_app. rewrite decide_False by done. lia.
    + rewrite (H1 _ _ E), !decide_False by congruence. done.
  - split; [|done]. intros t' st [[-> ->]|[Ne E]]%ins_lookup; [|by apply H1]. specialize (Hs k). rewrite (decide_False (P := k = k0)) in Hs by done.
    rewrite sum_list_with_app. specialize (H1 _ _ Ht). cbn in H1. lia.
Qed.
Definition cb_lock k i : nat := match i with IUnlockCallback k' => if decide (k = k') then 1 else 0 | _ => 0 end.
Definition ca_lock k i : nat :=
  match i with IBody call _ => if decide (k = call_kind call) then 1 else 0 | IUnlock k' => if decide (k = k') then 1 else 0 | _ => 0 end.
Lemma sum_flush (f : instr -> nat) k n qs : (forall q, f (IFlush k n q) = 0%nat) -> sum_list_with f (IFlush k n <$> qs) = 0%nat.
Proof. intros H. induction qs as [|q qs IH]; [done|]. cbn. by rewrite H, IH. Qed.
Lemma reach_owned ths w : reach (ths, w) -> owned (w_callback w) cb_lock ths /\ owned (w_cache w) ca_lock ths.
Proof.
  revert ths w. refine (reach_ind' (fun ths w => owned (w_callback w) cb_lock ths /\ owned (w_cache w) ca_lock ths) _ _ _).
  - intros a _. split; intros k; split; done.
  - intros ths w _ [IH1 IH2] _. split; by apply owned_spawn.
  - intros ths w t i rest new w' _ [IH1 IH2] _ Ht E. destruct E; wsimpl.
    all: try (split; (eapply owned_same; [done|done|intros k1; cbn; reflexivity])).
    + split; (eapply owned_same; [done|done|intros k1]); destruct i; done.
    + split; (eapply owned_same; [done|done|intros k1]); unfold api_code; by destruct (ap_blocking a).
    + split; [by eapply owned_same|]. eapply owned_acquire; [done|done|done|]. intros k1. cbn. lia.
    + split; (eapply owned_same; [done|done|intros k1]); rewrite !sum_list_with_app, sum_flush by done; destruct u as [[c a']|]; cbn; lia.
    + split; [by eapply owned_same|]. eapply owned_release; [done|done|]. intros k1. cbn. done.
    + split; [|by eapply owned_same]. eapply owned_acquire; [done|done|done|]. intros k1. cbn. lia.
    + split; (eapply owned_same; [done|done|intros k1]); unfold callback_code; by destruct q.
    + split; [|by eapply owned_same]. eapply owned_release; [done|done|]. intros k1. cbn. done.
    + split; (eapply owned_same; [done|done|intros k1]); unfold after_code; by destruct (status_eqb _ _), (ap_request a).
    + split; (eapply owned_same; [done|done|intros k1]); destruct f; try done; cbn; by destruct (status_eqb _ _).
Qed.
Lemma sum_pos (f : instr -> nat) st : (sum_list_with f st <> 0)%nat <-> exists i, i ∈ st /\ f i <> 0%nat.
Proof.
  induction st as [|j st IH]; cbn; [split; [done|intros (i & H & _); by apply elem_of_nil in H]|]. destruct (decide (f j = 0%nat)) as [E|E].
  - rewrite E. cbn. rewrite IH. split; intros (i & H1 & H2); exists i; [by split; [apply elem_of_list_further|]|]. split; [|done]. apply elem_of_cons in H1 as [->|]; done.
  - split; [intros _; exists j; split; [apply elem_of_list_here|done]|lia].
Qed.
Lemma callback_owner ths w t st k : reach (ths, w) -> ths !! t = Some st -> IUnlockCallback k ∈ st <-> w_callback w k = Some t.
Proof.
  intros R Ht. destruct (proj1 (reach_owned R) k) as [H1 H2]. specialize (H1 _ _ Ht). split.
  - intros H. destruct (decide _); [done|]. exfalso. assert (sum_list_with (cb_lock k) st <> 0%nat) as H3; [|by rewrite H1 in H3].
    apply sum_pos. eexists. split; [done|]. cbn. by rewrite decide_True.
  - intros E. rewrite decide_True in H1 by done. assert (sum_list_with (cb_lock k) st <> 0%nat) as H3 by (by rewrite H1). apply sum_pos in H3 as (i & H3 & H4).
    destruct i; try done. cbn in H4. destruct (decide _); [by subst|done].
Qed.
Lemma cache_owner ths w t st k : reach (ths, w) -> ths !! t = Some st -> (exists i, i ∈ st /\ ca_lock k i <> 0%nat) <-> w_cache w k = Some t.
Proof.
  intros R Ht. destruct (proj2 (reach_owned R) k) as [H1 H2]. specialize (H1 _ _ Ht). rewrite <- sum_pos, H1. by destruct (decide _).
Qed.

(** ** What may be below an instruction on a stack *)
Fixpoint below (P : instr -> list instr -> Prop) (st : list instr) : Prop :=
  match st with [] => True | i :: l => P i l /\ below P l end.
Definition belows P ths : Prop := forall t st, ths !! t = Some st -> below P st.
Lemma below_app P l m : below P (l ++ m) -> below P m.
Proof. induction l as [|j l IH]; [done|]. intros [_ H]. by apply IH. Qed.
Lemma below_elem P l1 i l2 : below P (l1 ++ i :: l2) -> P i l2.
Proof. intros H%below_app. apply H. Qed.
Lemma belows_step P ths t i rest new : belows P ths -> ths !! t = Some (i :: rest) -> (P i rest -> below P rest -> below P (new ++ rest)) ->
  belows P (<[t := new ++ rest]> ths).
Proof. intros H Ht HN t' st [[-> ->]|[Ne E]]%ins_lookup; [|by eapply H]. destruct (H _ _ Ht) as [H1 H2]. by apply HN. Qed.
Lemma belows_spawn P ths : belows P ths -> P IUser [] -> belows P (ths ++ [[IUser]]).
Proof. intros H HU t st [E|[_ E]]%lookup_app_Some; [by eapply H|]. apply list_lookup_singleton_Some in E as [_ <-]. by split. Qed.
Lemma below_flush (P : instr -> list instr -> Prop) k n qs m : (forall q qs', q ∈ qs -> P (IFlush k n q) ((IFlush k n <$> qs') ++ m)) -> below P m -> below P ((IFlush k n <$> qs) ++ m).
Proof.
  induction qs as [|q qs IH]; [done|]. intros H Hm. split; [apply H, elem_of_list_here|]. apply IH; [|done]. intros. by apply H, elem_of_list_further.
Qed.

(** A thread that holds cache_mutex_ executes the body of the call or releases it. *)
Definition cachey i : bool := match i with IBody _ _ | IUnlock _ => true | _ => false end.
Definition no_cache (_ : instr) (l : list instr) : Prop := forallb (fun i => negb (cachey i)) l = true.
Lemma reach_no_cache ths w : reach (ths, w) -> belows no_cache ths.
Proof.
  revert ths w. refine (reach_ind' (fun ths w => belows no_cache ths) _ _ _).
  - by intros a _ t st H.
  - intros ths w _ IH _. by apply belows_spawn.
  - intros ths w t i rest new w' _ IH _ Ht E. eapply belows_step; [done|done|]. intros H1 H2. unfold no_cache in H1.
    assert (forall l, forallb (fun i => negb (cachey i)) l = true -> below no_cache (l ++ rest)) as G.
    { induction l as [|j l IH']; [done|]. cbn [forallb]. intros [Hj Hl]%andb_true_iff. split; [|by apply IH'].
      unfold no_cache. rewrite forallb_app. apply andb_true_iff. by split. }
    assert (forall j l, forallb (fun i => negb (cachey i)) l = true -> below no_cache ((j :: l) ++ rest)) as G'.
    { intros j l Hl. split; [|by apply G]. unfold no_cache. rewrite forallb_app. apply andb_true_iff. by split. }
    destruct E; try (apply G; reflexivity); try (apply G'; reflexivity).
    + unfold api_code. apply G. by destruct (ap_blocking a).
    + apply G'. rewrite !forallb_app. apply andb_true_iff. split; [|by destruct u as [[]|]].
      induction (rs_flushed r); [done|]. by cbn.
    + apply G. unfold callback_code. by destruct q.
    + apply G. unfold after_code. by destruct (status_eqb _ _), (ap_request a).
    + apply G. destruct f; cbn; try destruct (status_eqb _ _); done.
Qed.

(** What a thread does while it holds callback_mutex_. *)
Definition in_callback k i : Prop :=
  match i with
  | IInvoke k' _ _ | ICount (FromFlush k' _) _ _ => k' = k
  | ITransport (FromFlush k' _) q f => k' = k /\ kind_of q = k /\ f = flush_done q
  | ICompleted _ FlushedCheck _ _ => k = KCheck
  | ICompleted _ FlushedReport _ _ => k = KReport
  | ICompleted _ (FlushedQuota _) _ _ => k = KQuota
  | IAgg call None | IBody call None => k = KQuota /\ call_kind call = KQuota
  | IUnlock k' | IFlush k' _ _ | IAggReturn k' _ => k = KQuota /\ k' = KQuota
  | _ => False
  end.
Lemma estep_in_callback t w i new w' k : estep t w i new w' -> typed t i -> in_callback k i -> forall j, j ∈ new -> in_callback k j \/ exists k' n q, i = IFlush k' n q.
Proof.
  intros E T H j Hj. destruct E; try (by apply elem_of_nil in Hj); try done; try (by right; eexists _, _, _); left.
  - apply elem_of_list_singleton in Hj as ->. by destruct u.
  - destruct u as [[c a']|]; [done|]. destruct H as [-> H2]. rewrite !elem_of_app in Hj. destruct Hj as [Hj|[Hj|[Hj|Hj]]].
    + by apply elem_of_list_singleton in Hj as ->.
    + apply elem_of_list_fmap in Hj as (q & -> & Hq). done.
    + by apply elem_of_list_singleton in Hj as ->.
    + by apply elem_of_nil in Hj.
  - cbn in T, H. subst k0. unfold callback_code in Hj. destruct q; cbn in Hj; rewrite ?elem_of_cons, elem_of_nil in Hj; naive_solver.
  - cbn in H. destruct o; [done|]. cbn in T. destruct H as (-> & H & ->). apply elem_of_list_singleton in Hj as ->. destruct q; cbn in *; done.
  - destruct f; cbn in H, Hj; try done; try destruct (status_eqb _ _); cbn in Hj; rewrite ?elem_of_cons, elem_of_nil in Hj; naive_solver.
Qed.

(** Above the release of callback_mutex_ there is only the code of the callback. *)
Definition guarded (i : instr) (l : list instr) : Prop := forall k, IUnlockCallback k ∈ l -> in_callback k i.
Lemma new_unlock t w i new w' k : estep t w i new w' -> IUnlockCallback k ∈ new -> exists n q, i = IFlush k n q.
Proof.
  intros E Hj. destruct E; try (by apply elem_of_nil in Hj); try (by apply elem_of_list_singleton in Hj).
  - unfold api_code in Hj. destruct (ap_blocking a); cbn in Hj; rewrite ?elem_of_cons, elem_of_nil in Hj; naive_solver.
  - rewrite !elem_of_cons, elem_of_nil in Hj. naive_solver.
  - cbn in Hj. rewrite !elem_of_cons, elem_of_nil in Hj. naive_solver.
  - cbn in Hj. rewrite !elem_of_cons, elem_of_nil in Hj. naive_solver.
  - rewrite !elem_of_app in Hj. destruct Hj as [Hj|[Hj|[Hj|Hj]]].
    + by apply elem_of_list_singleton in Hj.
    + apply elem_of_list_fmap in Hj as (q & ? & Hq). done.
    + by apply elem_of_list_singleton in Hj.
    + destruct u as [[c a0]|]; [|by apply elem_of_nil in Hj]. by apply elem_of_list_singleton in Hj.
  - rewrite !elem_of_cons, elem_of_nil in Hj. destruct Hj as [Hj|[Hj|[]]]; [done|]. injection Hj as ->. eauto.
  - unfold callback_code in Hj. destruct q; cbn in Hj; rewrite ?elem_of_cons, elem_of_nil in Hj; naive_solver.
  - unfold after_code in Hj. destruct (status_eqb _ _), (ap_request a); cbn in Hj; rewrite ?elem_of_cons, elem_of_nil in Hj; naive_solver.
  - destruct f; cbn in Hj; try destruct (status_eqb _ _); cbn in Hj; rewrite ?elem_of_cons, elem_of_nil in Hj; naive_solver.
Qed.
Lemma reach_guarded ths w : reach (ths, w) -> belows guarded ths.
Proof.
  revert ths w. refine (reach_ind' (fun ths w => belows guarded ths) _ _ _).
  - by intros a _ t st H.
  - intros ths w _ IH _. apply belows_spawn; [done|]. intros k H. by apply elem_of_nil in H.
  - intros ths w t i rest new w' R IH _ Ht E. eapply belows_step; [done|done|]. intros H1 H2.
    assert (typed t i) as T by (eapply (reach_typed R); [done|apply elem_of_list_here]).
    assert ((exists k n q, i = IFlush k n q) \/ ~ exists k n q, i = IFlush k n q) as [(k & n & q & ->)|Nf] by (destruct i; naive_solver).
    { inversion E; subst; [|]. 1: done. cbn. repeat split; [| |done].
      - intros k' [Hk|Hk]%elem_of_cons; [injection Hk as ->; done|]. destruct (H1 _ Hk) as [-> ->].
        exfalso. assert (w_callback w KQuota = Some t); [|congruence]. eapply callback_owner; [exact R|exact Ht|]. by apply elem_of_list_further.
      - intros k' Hk. destruct (H1 _ Hk) as [-> ->]. exfalso. assert (w_callback w KQuota = Some t); [|congruence].
        eapply callback_owner; [exact R|exact Ht|]. by apply elem_of_list_further. }
    assert (forall k, IUnlockCallback k ∉ new) as Hn. { intros k Hk. destruct (new_unlock E Hk) as (n & q & ->). apply Nf. eauto. }
    assert (forall k j, IUnlockCallback k ∈ rest -> j ∈ new -> in_callback k j) as Hin.
    { intros k j Hk Hj. destruct (estep_in_callback _ E T (H1 _ Hk) Hj) as [H|(k' & n & q & ->)]; [done|]. exfalso. apply Nf. eauto. }
    clear E Nf Ht. induction new as [|j new IHn]; [done|]. split.
    + intros k [Hk|Hk]%elem_of_app; [exfalso; apply (Hn k); by apply elem_of_list_further|]. apply Hin; [done|]. apply elem_of_list_here.
    + apply IHn; [intros k Hk; apply (Hn k); by apply elem_of_list_further|]. intros k j' Hk Hj. apply Hin; [done|]. by apply elem_of_list_further.
Qed.

(** Below code of the user, a waiting thread, or an instruction that will complete a call, nothing else completes a call. *)
Definition barrier i : bool := match i with IUser | IWait _ => true | _ => match tok i with [] => false | _ => true end end.
Definition tidy (i : instr) (l : list instr) : Prop := barrier i = true -> l ≫= tok = [].
Lemma barrier_tok i : barrier i = false -> tok i = [].
Proof. unfold barrier. destruct (tok i); [done|]. by destruct i. Qed.
Lemma tidy_plain l rest : (l ≫= tok = []) -> (rest ≫= tok = []) -> below tidy rest -> below tidy (l ++ rest).
Proof.
  intros Hl Hr B. induction l as [|j l IH]; [done|]. rewrite bind_cons in Hl. apply app_nil in Hl as [H1 H2]. split; [|by apply IH].
  intros _. by rewrite bind_app, H2, Hr.
Qed.
Lemma tidy_free l rest : forallb (fun j => negb (barrier j)) l = true -> below tidy rest -> below tidy (l ++ rest).
Proof.
  intros Hl B. induction l as [|j l IH]; [done|]. apply andb_true_iff in Hl as [H1 H2]. split; [|by apply IH].
  intros Hb. apply negb_true_iff in H1. congruence.
Qed.
Lemma reach_tidy ths w : reach (ths, w) -> belows tidy ths.
Proof.
  revert ths w. refine (reach_ind' (fun ths w => belows tidy ths) _ _ _).
  - by intros a _ t st H.
  - intros ths w _ IH _. by apply belows_spawn.
  - intros ths w t i rest new w' R IH _ Ht E. eapply belows_step; [done|done|]. intros H1 H2. unfold tidy in H1.
    assert (forall j, barrier i = true -> below tidy ([j] ++ rest)) as G1. { intros j Hb. split; [|done]. intros _. by apply H1. }
    destruct E; try done; try (by apply G1).
    all: try (apply tidy_free; [reflexivity|done]).
    + specialize (H1 eq_refl). unfold api_code. destruct (ap_blocking a); cbn; unfold tidy; cbn; by rewrite ?H1.
    + specialize (H1 eq_refl). cbn. unfold tidy. cbn. by rewrite H1.
    + rewrite <- !app_assoc. cbn. split; [done|]. apply below_flush; [by intros q qs' _ Hb|]. split; [done|].
      destruct u as [[c a']|]; [|done]. split; [|done]. intros _. by apply H1.
    + apply tidy_free; [|done]. unfold callback_code. by destruct q.
    + specialize (H1 eq_refl). unfold after_code. destruct (status_eqb _ _), (ap_request a); cbn; unfold tidy; cbn; by rewrite ?H1.
    + destruct f; cbn; try destruct (status_eqb _ _); cbn; repeat split; try done; intros _; by apply H1.
Qed.

(** The code of a call is above its return, and the code of a callback above the release of its mutex. *)
Definition needs (i : instr) : list instr :=
  match i with
  | ICount (FromFlush k _) _ _ | IInvoke k _ _ | ITransport (FromFlush k _) _ _ => [IUnlockCallback k]
  | ICount (FromCall c) _ _ | IGate c _ | IAgg _ (Some (c, _)) | IBody _ (Some (c, _)) | IAfter c _ _ _ | ITransport (FromCall c) _ _ | IWait c => [IReturn c]
  | _ => []
  end.
Definition scoped (i : instr) (l : list instr) : Prop := forall x, x ∈ needs i -> x ∈ l.
Lemma scoped_plain new rest (xs : list instr) : (forall j, j ∈ new -> forall x, x ∈ needs j -> x ∈ xs) -> (forall x, x ∈ xs -> x ∈ rest) -> below scoped rest -> below scoped (new ++ rest).
Proof.
  intros H Hx B. induction new as [|j new IH]; [done|]. split.
  - intros x Hj. apply elem_of_app. right. apply Hx. apply (H j); [apply elem_of_list_here|done].
  - apply IH. intros j' Hj. apply H. by apply elem_of_list_further.
Qed.
Lemma reach_scoped ths w : reach (ths, w) -> belows scoped ths.
Proof.
  revert ths w. refine (reach_ind' (fun ths w => belows scoped ths) _ _ _).
  - by intros a _ t st H.
  - intros ths w _ IH _. apply belows_spawn; [done|]. intros x H. by apply elem_of_nil in H.
  - intros ths w t i rest new w' R IH _ Ht E. eapply belows_step; [done|done|]. intros H1 H2. unfold scoped in H1.
    destruct E; try done.
    + (* a call *)
      assert (below scoped ([IReturn (w_calls w)] ++ [IUser] ++ rest)) as B. { split; [by intros x H3%elem_of_nil|]. split; [by intros x H3%elem_of_nil|done]. }
      unfold api_code. rewrite <- !app_assoc. cbn.
      assert (IReturn (w_calls w) ∈ [IReturn (w_calls w)] ++ [IUser] ++ rest) as Hr by apply elem_of_list_here.
      destruct (ap_blocking a); cbn; repeat split; try apply B; intros x Hx%elem_of_list_singleton; subst x; set_solver.
    + apply (scoped_plain (xs := [])); [|set_solver|done]. intros j Hj x. rewrite !elem_of_cons, elem_of_nil in Hj. destruct Hj as [->|[->|[]]]; cbn; set_solver.
    + apply (scoped_plain (xs := [])); [|set_solver|done]. intros j Hj x. cbn in Hj. rewrite !elem_of_cons, elem_of_nil in Hj. destruct_or? Hj; subst; cbn; set_solver.
    + apply (scoped_plain (xs := [])); [|set_solver|done]. intros j Hj x. cbn in Hj. rewrite !elem_of_cons, elem_of_nil in Hj. destruct_or? Hj; subst; cbn; set_solver.
    + split; [by intros x H3%elem_of_nil|done].
    + (* the body of an aggregator call *)
      apply (scoped_plain (xs := needs (IBody call u))); [|exact H1|done]. intros j. rewrite !elem_of_app. intros [Hj|[Hj|[Hj|Hj]]] x Hx.
      * by apply elem_of_list_singleton in Hj as ->; apply elem_of_nil in Hx.
      * apply elem_of_list_fmap in Hj as (q & -> & Hq). by apply elem_of_nil in Hx.
      * by apply elem_of_list_singleton in Hj as ->; apply elem_of_nil in Hx.
      * destruct u as [[c a0]|]; [|by apply elem_of_nil in Hj]. by apply elem_of_list_singleton in Hj as ->.
    + split; [|split; [by intros x H3%elem_of_nil|done]]. intros x Hx%elem_of_list_singleton. subst. apply elem_of_list_here.
    + apply (scoped_plain (xs := [IUnlockCallback k])); [|exact H1|done]. intros j Hj x Hx. unfold callback_code in Hj.
      destruct q; cbn in Hj; rewrite ?elem_of_cons, elem_of_nil in Hj; destruct_or? Hj; subst; done.
    + apply (scoped_plain (xs := [IReturn c])); [|exact H1|done]. intros j Hj x Hx. unfold after_code in Hj.
      destruct (status_eqb _ _), (ap_request a); cbn in Hj; rewrite ?elem_of_cons, elem_of_nil in Hj; destruct_or? Hj; subst; try done; by apply elem_of_nil in Hx.
    + split; [by intros x H3%elem_of_nil|done].
    + apply (scoped_plain (xs := [])); [|set_solver|done]. intros j Hj x Hx.
      destruct f; cbn in Hj; try destruct (status_eqb _ _); cbn in Hj; rewrite ?elem_of_cons, elem_of_nil in Hj; destruct_or? Hj; subst; try done; by apply elem_of_nil in Hx.
Qed.
End locks.
