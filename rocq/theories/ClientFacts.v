(** Invariants of the client, part 10: consequences stated over the trace. *)
From Verif Require Import Base Proto Signature OpAgg Lru Timeout Agg CheckAgg CheckAggSpec QuotaAgg QuotaAggSpec ReportAgg ReportAggSpec Client ClientSpec ClientInv ClientCalls ClientStage ClientFlush ClientLocks ClientLive ClientEnd.
From stdpp Require Import gmap list.
Local Open Scope Z_scope.
Set Implicit Arguments.

Section facts.
Variable debug : bool.
Variable ord : hash_order.
Variable md5 : string -> string.
Variable clk : kind -> nat -> Z.
Variable cf : client_config.
Notation step := (step debug ord md5 clk cf).
Notation reach := (reach debug ord md5 clk cf).
Notation agg_step := (agg_step debug ord md5 clk cf).
Notation estep := (estep debug ord md5 clk cf).
Implicit Types (w : world) (t : nat) (i : instr) (ths : list (list instr)) (tr : list event).

Lemma step_estep t ch ths w s : step t ch (ths, w) = Some s ->
  w_crash w = None /\ (s = (ths ++ [[IUser]], w) \/ exists i rest new w', ths !! t = Some (i :: rest) /\ estep t w i new w' /\ s = (<[t := new ++ rest]> ths, w')).
Proof.
  unfold Client.step. cbn [fst snd]. destruct (w_crash w); [done|]. destruct (ths !! t) as [[|i rest]|] eqn:Et; [done| |intros [= <-]; by split; [|left]].
  destruct (exec _ _ _ _ _ _ _ _ _) as [[new w']|] eqn:Ee; [|done]. intros [= <-]. split; [done|right]. exists i, rest, new, w'. split; [done|]. split; [|done]. by eapply exec_estep.
Qed.
Lemma estep_trace t w i new w' : estep t w i new w' -> exists evs, w_trace w' = w_trace w ++ evs.
Proof. intros E. destruct E; wsimpl; try (exists []; by rewrite app_nil_r); eexists; rewrite <- ?app_assoc; reflexivity. Qed.
Lemma snoc_neq {A} (l : list A) x : l ++ [x] <> l.
Proof. intros E. apply (f_equal length) in E. rewrite app_length in E. cbn in E. lia. Qed.

(** ** The mutexes that a thread holds when it runs foreign code *)
Lemma head_no_cache ths w t i rest k : reach (ths, w) -> ths !! t = Some (i :: rest) -> cachey i = false -> w_cache w k <> Some t.
Proof.
  intros R Ht Hi E. apply (cache_owner _ _ R Ht) in E as (j & Hj & Hl). assert (cachey j = true) as Hc by (by destruct j).
  apply elem_of_cons in Hj as [->|Hj]; [congruence|]. destruct (reach_no_cache R _ Ht) as [B _]. unfold no_cache in B. rewrite forallb_forall in B.
  apply elem_of_list_In in Hj. apply B in Hj. by rewrite Hc in Hj.
Qed.
Lemma head_no_callback ths w t i rest k : reach (ths, w) -> ths !! t = Some (i :: rest) -> ~ in_callback k i -> i <> IUnlockCallback k -> w_callback w k <> Some t.
Proof.
  intros R Ht Hi Hu E. apply (callback_owner _ _ R Ht) in E as Hk. apply elem_of_cons in Hk as [Hk|Hk]; [congruence|].
  destruct (reach_guarded R _ Ht) as [B _]. by apply B in Hk.
Qed.
Lemma done_step t ch ths w ths' w' t' c s r : step t ch (ths, w) = Some (ths', w') -> w_trace w' = w_trace w ++ [EDone t' c s r] -> t' = t /\ exists rest, ths !! t = Some (IDone c s r :: rest).
Proof.
  intros [_ [[= -> ->]|(i & rest & new & w1 & Ht & E & [= -> ->])]]%step_estep Htr; [symmetry in Htr; by apply snoc_neq in Htr|].
  destruct E; revert Htr; wsimpl; intros Htr; try (symmetry in Htr; by apply snoc_neq in Htr); rewrite <- ?app_assoc in Htr; apply app_inv_head in Htr; try done.
  injection Htr as -> -> -> ->. eauto.
Qed.
Lemma transport_step t ch ths w ths' w' t' n o q evs : step t ch (ths, w) = Some (ths', w') -> w_trace w' = w_trace w ++ ETransport t' n o q :: evs -> t' = t /\ exists f rest, ths !! t = Some (ITransport o q f :: rest).
Proof.
  intros [_ [[= -> ->]|(i & rest & new & w1 & Ht & E & [= -> ->])]]%step_estep Htr.
  { apply (f_equal length) in Htr. rewrite app_length in Htr. cbn in Htr. lia. }
  destruct E; revert Htr; wsimpl; intros Htr; try (apply (f_equal length) in Htr; rewrite app_length in Htr; cbn in Htr; lia); rewrite <- ?app_assoc in Htr; apply app_inv_head in Htr; try done.
  - injection Htr as E1 E2 E3 E4 E5. subst. eauto.
  - injection Htr as E1 E2 E3 E4 E5. subst. eauto.
Qed.
Lemma callback_step t ch ths w ths' w' t' k n q : step t ch (ths, w) = Some (ths', w') -> w_trace w' = w_trace w ++ [ECallback t' k n q] -> t' = t /\ exists rest, ths !! t = Some (IInvoke k n q :: rest).
Proof.
  intros [_ [[= -> ->]|(i & rest & new & w1 & Ht & E & [= -> ->])]]%step_estep Htr; [symmetry in Htr; by apply snoc_neq in Htr|].
  destruct E; revert Htr; wsimpl; intros Htr; try (symmetry in Htr; by apply snoc_neq in Htr); rewrite <- ?app_assoc in Htr; apply app_inv_head in Htr; try done.
  injection Htr as -> -> -> ->. eauto.
Qed.
Lemma done_unlocked t ch ths w ths' w' t' c s r k : reach (ths, w) -> step t ch (ths, w) = Some (ths', w') -> w_trace w' = w_trace w ++ [EDone t' c s r] ->
  w_cache w k <> Some t /\ w_callback w k <> Some t.
Proof.
  intros R E Htr. eapply done_step in E; [|exact Htr]; destruct E as (-> & rest & Ht). split; [by eapply head_no_cache|]. eapply head_no_callback; [done|done|by intros []|done].
Qed.
Lemma transport_unlocked t ch ths w ths' w' t' n c q evs k : reach (ths, w) -> step t ch (ths, w) = Some (ths', w') -> w_trace w' = w_trace w ++ ETransport t' n (FromCall c) q :: evs ->
  w_cache w k <> Some t /\ w_callback w k <> Some t.
Proof.
  intros R E Htr. eapply transport_step in E; [|exact Htr]; destruct E as (-> & f & rest & Ht). split; [by eapply head_no_cache|]. eapply head_no_callback; [done|done|by intros []|done].
Qed.
Lemma flush_transport_locks t ch ths w ths' w' t' n k0 m q evs k : reach (ths, w) -> step t ch (ths, w) = Some (ths', w') -> w_trace w' = w_trace w ++ ETransport t' n (FromFlush k0 m) q :: evs ->
  w_cache w k <> Some t /\ (w_callback w k = Some t <-> k = k0).
Proof.
  intros R E Htr. eapply transport_step in E; [|exact Htr]; destruct E as (-> & f & rest & Ht). split; [by eapply head_no_cache|]. split.
  - intros Hk. destruct (decide (k = k0)) as [|Ne]; [done|]. exfalso. revert Hk. eapply head_no_callback; [done|exact Ht|cbn; naive_solver|done].
  - intros ->. apply (callback_owner _ _ R Ht). destruct (reach_scoped R _ Ht) as [B _]. apply elem_of_list_further. apply B. cbn. set_solver.
Qed.
Lemma callback_unlocked t ch ths w ths' w' t' k n q k' : reach (ths, w) -> step t ch (ths, w) = Some (ths', w') -> w_trace w' = w_trace w ++ [ECallback t' k n q] -> w_cache w k' <> Some t.
Proof. intros R E Htr. eapply callback_step in E; [|exact Htr]; destruct E as (-> & rest & Ht). by eapply head_no_cache. Qed.

(** ** Calls *)
Lemma nodup_bind_elem {A B} (f : A -> list B) (l : list A) (x y : A) (b : B) : NoDup (l ≫= f) -> x ∈ l -> y ∈ l -> b ∈ f x -> b ∈ f y -> x = y.
Proof.
  induction l as [|z l IH]; [by intros _ H%elem_of_nil|]. rewrite bind_cons, NoDup_app. intros (N1 & N2 & N3) [->|Hx]%elem_of_cons [->|Hy]%elem_of_cons H1 H2; [done| | |by apply IH].
  - destruct (N2 b H1). apply elem_of_list_bind. by exists y.
  - destruct (N2 b H2). apply elem_of_list_bind. by exists x.
Qed.
Lemma start_unique ths w t c a t' a' : reach (ths, w) -> EStart t c a ∈ w_trace w -> EStart t' c a' ∈ w_trace w -> t = t' /\ a = a'.
Proof.
  intros R H1 H2. pose proof (started_NoDup R) as N. assert (EStart t c a = EStart t' c a') as [= -> ->]; [|done].
  eapply nodup_bind_elem with (b := c); [exact N|done|done|by apply elem_of_list_singleton|by apply elem_of_list_singleton].
Qed.
Lemma all_done ths w : reach (ths, w) -> w_crash w = None -> nothing_running ths -> sent (w_trace w) ≡ₚ answered (w_trace w) -> done (w_trace w) ≡ₚ started (w_trace w).
Proof.
  intros R Hc Hn Hs. destruct (sent_seq R) as [_ Hp]. rewrite Hs in Hp. apply Permutation_length in Hp. rewrite app_length, fmap_length in Hp.
  destruct (w_pending w) as [|p l] eqn:Ep; [|cbn in Hp; lia]. rewrite <- (one_place R Hc), Ep. cbn.
  assert (all tok ths = []) as ->; [|done]. unfold all. clear -Hn. induction Hn as [|st ths Hs H IH]; [done|]. rewrite bind_cons, IH, app_nil_r.
  clear -Hs. induction Hs as [|i st -> Hs IH]; [done|]. exact IH.
Qed.

(** What is known when a call returns. *)
Definition forwarded c tr : Prop := exists t n q, ETransport t n (FromCall c) q ∈ tr.
Definition done_above w i (l : list instr) : Prop := match i with IDone c _ _ => IReturn c ∈ l \/ forwarded c (w_trace w) | _ => True end.
Lemma forwarded_mono c tr evs : forwarded c tr -> forwarded c (tr ++ evs).
Proof. intros (t & n & q & H). exists t, n, q. apply elem_of_app. by left. Qed.
Lemma below_impl (P Q : instr -> list instr -> Prop) st : (forall i l, P i l -> Q i l) -> below P st -> below Q st.
Proof. intros H. induction st as [|i st IH]; [done|]. intros [H1 H2]. split; auto. Qed.
Lemma origin_forwarded w n f c : origin_of cf w n f -> c ∈ call_in f -> forwarded c (w_trace w).
Proof.
  intros [(t & c' & a & m & r & -> & _ & _ & _ & H & _)|(t & k & m & q & -> & _)] Hc.
  - rewrite call_in_on_done in Hc. apply elem_of_list_singleton in Hc as ->. eexists _, _, _. exact H.
  - destruct q; by apply elem_of_nil in Hc.
Qed.
Lemma reach_done_above ths w : reach (ths, w) -> belows (done_above w) ths.
Proof.
  revert ths w. refine (reach_ind' (fun ths w => belows (done_above w) ths) _ _ _).
  - by intros a _ t st H.
  - intros ths w _ IH _. by apply belows_spawn.
  - intros ths w t i rest new w' R IH Hc Ht E. destruct (estep_trace E) as (evs & Htr).
    assert (forall j l, done_above w j l -> done_above w' j l) as Hm.
    { intros j l. destruct j; try done. cbn. rewrite Htr. intros [|]; [by left|right]. by apply forwarded_mono. }
    assert (belows (done_above w') ths) as IH'. { intros t' st H. eapply below_impl; [exact Hm|]. by eapply IH. }
    assert (i ∈ i :: rest) as Hi by apply elem_of_list_here.
    eapply belows_step; [exact IH'|exact Ht|]. intros H1 H2.
    assert (forall l, (forall j, j ∈ l -> match j with IDone c _ _ => IReturn c ∈ rest \/ forwarded c (w_trace w') | _ => True end) -> below (done_above w') (l ++ rest)) as G.
    { intros l. induction l as [|j l IHl]; [done|]. intros Hl. split.
      - specialize (Hl j (elem_of_list_here _ _)). destruct j; try done. destruct Hl; [left|by right]. apply elem_of_app. by right.
      - apply IHl. intros j' Hj. apply Hl. by apply elem_of_list_further. }
    assert (forall c, IReturn c ∈ needs i -> IReturn c ∈ rest) as Hs. { intros c Hn. destruct (reach_scoped R _ Ht) as [B _]. by apply B. }
    apply G. intros j Hj. destruct E; try (by in_new Hj).
    + apply elem_of_list_singleton in Hj as ->. left. apply Hs. cbn. set_solver.
    + rewrite !elem_of_app, elem_of_list_singleton, elem_of_list_fmap in Hj. destruct Hj as [->|[(q & -> & _)|[Hj|Hj]]]; [done|done|in_new Hj|in_new Hj].
    + destruct j; try done. left. assert (c0 = c) as ->. { unfold after_code in Hj. destruct (status_eqb _ _), (ap_request a); cbn in Hj; rewrite ?elem_of_cons, ?elem_of_nil in Hj; destruct_or? Hj; try done; by injection Hj. }
      apply Hs. cbn. set_solver.
    + destruct j; try done. right. destruct (st_each (proj1 (reach_staged R)) _ Ht Hi) as [HO _]. eapply origin_forwarded; [exact HO|].
      destruct f; cbn in Hj; try destruct (status_eqb _ _); cbn in Hj; rewrite ?elem_of_cons, ?elem_of_nil in Hj; destruct_or? Hj; try done; injection Hj as -> _ _; cbn; set_solver.
Qed.
Lemma split_elem (P : instr -> list instr -> Prop) st j : below P st -> j ∈ st -> exists l1 l2, st = l1 ++ j :: l2 /\ P j l2.
Proof. intros B (l1 & l2 & ->)%elem_of_list_split. exists l1, l2. split; [done|]. by eapply below_elem. Qed.
(** The return of a call that is executed is not below anything else. *)
Lemma return_last ths w t c rest t' st j : reach (ths, w) -> ths !! t = Some (IReturn c :: rest) -> ths !! t' = Some st -> j ∈ st -> IReturn c ∉ needs j.
Proof.
  intros R Ht Ht' Hj Hn. pose proof (reach_ending R) as I. destruct (en_open I) as [N _]. rewrite <- (en_rets I) in N.
  pose proof (all_step rets _ _ [] Ht) as P. cbn in P. rewrite app_nil_r in P. rewrite <- P in N. apply NoDup_app in N as (_ & N & _). apply (N c); [|set_solver].
  destruct (split_elem _ (reach_scoped R _ Ht') Hj) as (l1 & l2 & -> & Hs). specialize (Hs _ Hn). apply all_elem. destruct (decide (t' = t)) as [->|Ne].
  - assert (l1 ++ j :: l2 = IReturn c :: rest) as E by congruence. destruct l1 as [|x l1]; [injection E as -> _; by apply elem_of_nil in Hn|].
    injection E as _ <-. exists t, (l1 ++ j :: l2), (IReturn c). split; [by apply list_lookup_insert; eapply lookup_lt_Some|]. split; [|set_solver].
    apply elem_of_app. right. by apply elem_of_list_further.
  - exists t', (l1 ++ j :: l2), (IReturn c). split; [by rewrite list_lookup_insert_ne|]. split; [|set_solver]. apply elem_of_app. right. by apply elem_of_list_further.
Qed.
Lemma return_known ths w t c rest : reach (ths, w) -> w_crash w = None -> ths !! t = Some (IReturn c :: rest) -> c ∈ done (w_trace w) \/ forwarded c (w_trace w).
Proof.
  intros R Hc Ht. pose proof (reach_ending R) as I. assert (c ∈ w_open w) as Ho.
  { rewrite <- (en_rets I). apply all_elem. exists t, (IReturn c :: rest), (IReturn c). split; [done|]. split; [apply elem_of_list_here|set_solver]. }
  assert (c ∈ started (w_trace w)) as Hs. { rewrite (started_seq R). apply elem_of_seq. destruct (en_open I) as [_ H]. eapply Forall_forall in H; [|done]. lia. }
  rewrite <- (one_place R Hc) in Hs. rewrite !elem_of_app in Hs. destruct Hs as [Hs|[Hs|]]; [| |by left].
  - right. apply all_elem in Hs as (t' & st & j & H1 & H2 & H3). pose proof (@return_last ths w t c rest t' st j R Ht H1 H2) as Hn. pose proof (st_each (proj1 (reach_staged R)) _ H1 H2) as St.
    destruct j as [|o c' n|c' a|call [[c' a]|]|call [[c' a]|]|k|k n q|k n q|k|k n|c' a n r|[c'|k n] q f|n f s r|c' s r|c'|c'|k| |]; cbn [tok] in H3; try (by apply elem_of_nil in H3);
      try (apply elem_of_list_singleton in H3 as <-; destruct Hn; cbn; apply elem_of_list_here).
    + cbn in St. destruct St as (a & n & r & _ & _ & _ & ->). rewrite call_in_on_done in H3. apply elem_of_list_singleton in H3 as <-. destruct Hn. cbn. apply elem_of_list_here.
    + cbn in St. subst f. by destruct q; apply elem_of_nil in H3.
    + eapply origin_forwarded; [apply St|done].
    + apply elem_of_list_singleton in H3 as <-. destruct (split_elem _ (reach_done_above R _ H1) H2) as (l1 & l2 & E & [H|]); [|done].
      exfalso. destruct (en_open I) as [N _]. rewrite <- (en_rets I) in N. pose proof (all_step rets _ _ [] Ht) as P. cbn in P. rewrite app_nil_r in P. rewrite <- P in N.
      apply NoDup_app in N as (_ & N & _). apply (N c); [|set_solver]. apply all_elem. subst st. destruct (decide (t' = t)) as [->|Ne].
      * rewrite Ht in H1. injection H1 as E1. destruct l1 as [|x l1]; [done|]. injection E1 as _ E1. exists t, rest, (IReturn c). split; [by apply list_lookup_insert; eapply lookup_lt_Some|]. split; [|set_solver].
        rewrite E1. apply elem_of_app. right. by apply elem_of_list_further.
      * exists t', (l1 ++ IDone c s r :: l2), (IReturn c). split; [by rewrite list_lookup_insert_ne|]. split; [|set_solver]. apply elem_of_app. right. by apply elem_of_list_further.
  - right. apply elem_of_list_bind in Hs as (p & H1 & H2). eapply origin_forwarded; [|exact H1]. by eapply (st_pending (proj1 (reach_staged R))).
Qed.
(** A blocking call still waits, or is done. *)
Definition waits w (st : list instr) : Prop := forall c t a, IReturn c ∈ st -> EStart t c a ∈ w_trace w -> ap_blocking a = true -> IWait c ∈ st \/ c ∈ done (w_trace w).
Lemma done_mono c tr evs : c ∈ done tr -> c ∈ done (tr ++ evs).
Proof. unfold done. rewrite bind_app, elem_of_app. by left. Qed.
Lemma old_start t w i new w' c t1 a : estep t w i new w' -> (c < w_calls w)%nat -> EStart t1 c a ∈ w_trace w' -> EStart t1 c a ∈ w_trace w.
Proof.
  intros E Hc. destruct E; wsimpl; try done; rewrite !elem_of_app, !elem_of_list_singleton; intros Hin; destruct_or? Hin; try done. injection Hin as -> -> ->. lia.
Qed.
Lemma new_return t w i new w' c : estep t w i new w' -> IReturn c ∈ new -> exists a, new = api_code c a ++ [IUser] /\ i = IUser /\ c = w_calls w /\ w_trace w' = w_trace w ++ [EStart t c a].
Proof.
  intros E H. destruct E; try (by in_new H).
  - unfold api_code in H. rewrite !elem_of_app, !elem_of_cons, elem_of_nil in H. assert (c = w_calls w) as ->. { destruct (ap_blocking a); rewrite ?elem_of_cons, ?elem_of_nil in H; destruct_or? H; try done; by injection H. }
    exists a. by wsimpl.
  - rewrite !elem_of_app, elem_of_list_singleton, elem_of_list_fmap in H. destruct H as [H|[(q & H & _)|[H|H]]]; [done|done|in_new H|in_new H].
Qed.
Lemma reach_waits ths w : reach (ths, w) -> forall t st, ths !! t = Some st -> waits w st.
Proof.
  revert ths w. refine (reach_ind' (fun ths w => forall t st, ths !! t = Some st -> waits w st) _ _ _).
  - by intros a _ t st H.
  - intros ths w _ IH _ t st [H|[_ H]]%lookup_app_Some; [by eapply IH|]. apply list_lookup_singleton_Some in H as [_ <-]. intros c t' a H. in_new H.
  - intros ths w t i rest new w' R IH Hc Ht E t1 st H1. destruct (estep_trace E) as (evs & Htr). pose proof (reach_ending R) as I.
    assert (forall c t st, ths !! t = Some st -> IReturn c ∈ st -> (c < w_calls w)%nat) as Hlt.
    { intros c t' st' H2 H3. destruct (en_open I) as [_ H]. eapply Forall_forall in H; [exact H|]. rewrite <- (en_rets I). apply all_elem. exists t', st', (IReturn c). split; [done|]. split; [done|set_solver]. }
    assert (forall c t st, ths !! t = Some st -> forall t2 a, IReturn c ∈ st -> EStart t2 c a ∈ w_trace w' -> ap_blocking a = true -> IWait c ∈ st \/ c ∈ done (w_trace w)) as Hold.
    { intros c t' st' H2 t2 a H3 H4 Hb. eapply IH; [done|done| |done]. eapply old_start; [exact E|by eapply Hlt|done]. }
    intros c t2 a Hr Hs Hb. rewrite Htr. apply ins_lookup in H1 as [[-> ->]|[_ H1]]; [|destruct (Hold c _ _ H1 _ _ Hr Hs Hb); [by left|right; by apply done_mono]].
    apply elem_of_app in Hr as [Hr|Hr].
    + destruct (new_return E Hr) as (a' & -> & -> & -> & Htr'). rewrite Htr' in Hs. apply elem_of_app in Hs as [Hs|Hs%elem_of_list_singleton].
      * exfalso. assert (w_calls w ∈ started (w_trace w)) as H. { unfold started. apply elem_of_list_bind. eexists. split; [|exact Hs]. by apply elem_of_list_singleton. }
        rewrite (started_seq R), elem_of_seq in H. lia.
      * injection Hs as -> ->. left. unfold api_code. rewrite Hb. set_solver.
    + destruct (Hold c _ _ Ht t2 a) as [H|H]; [by apply elem_of_list_further|done|done| |right; by apply done_mono].
      apply elem_of_cons in H as [<-|H]; [|left; apply elem_of_app; by right]. right. apply done_mono. inversion E; subst; [done|]. by apply done_event.
Qed.
Lemma return_blocking ths w t c rest t' a : reach (ths, w) -> ths !! t = Some (IReturn c :: rest) -> EStart t' c a ∈ w_trace w -> ap_blocking a = true -> c ∈ done (w_trace w).
Proof.
  intros R Ht Hs Hb. destruct (reach_waits R _ Ht (elem_of_list_here _ _) Hs Hb) as [H|]; [|done]. exfalso. destruct (@return_last ths w t c rest t _ _ R Ht Ht H). cbn. apply elem_of_list_here.
Qed.
(** What has happened before a call returns. *)
Definition returns_known tr ev : Prop :=
  match ev with
  | EReturn _ c => (exists t a, EStart t c a ∈ tr /\ (ap_blocking a = true -> c ∈ done tr)) /\ (c ∈ done tr \/ forwarded c tr)
  | _ => True
  end.
Lemma reach_returns ths w : reach (ths, w) -> each_event returns_known (w_trace w).
Proof.
  revert ths w. refine (reach_ind' (fun ths w => each_event returns_known (w_trace w)) _ _ _); [|done|].
  - intros a _ l1 ev l2 E. by destruct l1.
  - intros ths w t i rest new w' R IH Hc Ht E. destruct E; wsimpl; try done; repeat apply each_event_snoc; try done.
    split; [|by eapply return_known]. pose proof (reach_ending R) as I.
    assert (c ∈ started (w_trace w)) as Hs.
    { rewrite (started_seq R). apply elem_of_seq. destruct (en_open I) as [_ H]. assert (c ∈ w_open w) as Ho.
      { rewrite <- (en_rets I). apply all_elem. exists t, (IReturn c :: rest), (IReturn c). split; [done|]. split; [apply elem_of_list_here|set_solver]. }
      eapply Forall_forall in H; [|done]. lia. }
    unfold started in Hs. apply elem_of_list_bind in Hs as (ev & H1 & H2). destruct ev; try by apply elem_of_nil in H1. apply elem_of_list_singleton in H1 as <-.
    eexists _, _. split; [exact H2|]. intros Hb. by eapply return_blocking.
Qed.

(** ** The story of a call *)
Lemma story_elem c tr ev : concerns c ev = true -> ev ∈ tr <-> ev ∈ story c tr.
Proof.
  intros Hc. unfold story. rewrite elem_of_list_bind. split.
  - intros H. exists ev. split; [|done]. rewrite Hc. by apply elem_of_list_singleton.
  - intros (ev' & H1 & H2). destruct (concerns c ev'); [|by apply elem_of_nil in H1]. by apply elem_of_list_singleton in H1 as ->.
Qed.
Lemma concerns_start t c a : concerns c (EStart t c a) = true.
Proof. cbn. apply Nat.eqb_refl. Qed.
Lemma settled_start w c a s r l : settled cf w c a s r l -> exists t l', l = EStart t c a :: l'.
Proof. intros []; eauto. Qed.
Lemma progress_start_inv w c a l : progress cf w c a l -> exists t l', l = EStart t c a :: l'.
Proof. intros []; eauto. destruct (settled_start H) as (t' & l' & ->). by exists t', (l' ++ [EDone t c s r]). Qed.
Lemma reach_progress ths w t c a : reach (ths, w) -> w_crash w = None -> EStart t c a ∈ w_trace w -> progress cf w c a (story c (w_trace w)).
Proof.
  intros R Hc Hs. assert (exists a', progress cf w c a' (story c (w_trace w))) as (a' & Hp).
  - assert (c ∈ started (w_trace w)) as Hin. { unfold started. apply elem_of_list_bind. eexists. split; [|exact Hs]. by apply elem_of_list_singleton. }
    rewrite <- (one_place R Hc) in Hin. rewrite !elem_of_app in Hin.
    assert (forall n f, origin_of cf w n f -> c ∈ call_in f -> exists a', progress cf w c a' (story c (w_trace w))) as HO.
    { intros n f [(t' & c' & a' & m & r & -> & H1 & H2 & H3 & _ & H4)|(t' & k & m & q & -> & _)] H.
      - rewrite call_in_on_done in H. apply elem_of_list_singleton in H as ->. rewrite H4. exists a'. by econstructor.
      - destruct q; by apply elem_of_nil in H. }
    destruct Hin as [Hin|[Hin|Hin]].
    + apply all_elem in Hin as (t' & st & j & H1 & H2 & H3). pose proof (st_each (proj1 (reach_staged R)) _ H1 H2) as St.
      destruct j as [|o c' n|c' a1|call [[c' a1]|]|call [[c' a1]|]|k|k n q|k n q|k|k n|c' a1 n r|[c'|k n] q f|n f s r|c' s r|c'|c'|k| |]; cbn [tok] in H3; try (by apply elem_of_nil in H3);
        try (apply elem_of_list_singleton in H3 as <-); cbn [stage] in St.
      * rewrite St. eexists. econstructor.
      * destruct St as (_ & _ & ->). eexists. econstructor.
      * destruct St as (_ & _ & ->). eexists. econstructor.
      * destruct St as (Sa & Sb & ->). exists a1. by econstructor.
      * destruct St as (a1 & n & r & (Sa & Sb & Sc) & _ & _ & ->). rewrite call_in_on_done in H3. apply elem_of_list_singleton in H3 as ->. rewrite Sc. exists a1. by econstructor.
      * subst f. destruct q; by apply elem_of_nil in H3.
      * eapply HO; [apply St|done].
      * destruct St as (a1 & St). inversion St; subst; exists a1; by econstructor.
    + apply elem_of_list_bind in Hin as (p & H1 & H2). eapply HO; [|exact H1]. by eapply (st_pending (proj1 (reach_staged R))).
    + unfold done in Hin. apply elem_of_list_bind in Hin as (ev & H1 & H2). destruct ev; try by apply elem_of_nil in H1. apply elem_of_list_singleton in H1 as <-.
      destruct (st_done (proj1 (reach_staged R)) H2) as (a' & l & H3 & ->). exists a'. by econstructor.
  - destruct (progress_start_inv Hp) as (t' & l' & E). apply story_start in E. by destruct (start_unique R Hs E) as [_ ->].
Qed.
(** ** Which calls are forwarded *)
Lemma forwards_story c tr : forwards c tr = forwards c (story c tr).
Proof.
  unfold forwards, story. induction tr as [|ev tr IH]; [done|]. rewrite !bind_cons, bind_app. f_equal; [|exact IH].
  destruct ev as [t c' a|t k n [c'|]|t k n q|t k n q|t k n|t n [c'|k m] q|t n s r b|t c' s r|t c'|t|t|t k|t]; cbn; try done; destruct (Nat.eqb c' c) eqn:E; cbn; try done; by rewrite E.
Qed.
Lemma returned_known ths w t c : reach (ths, w) -> EReturn t c ∈ w_trace w -> (exists t a, EStart t c a ∈ w_trace w) /\ (c ∈ done (w_trace w) \/ forwarded c (w_trace w)).
Proof.
  intros R (l1 & l2 & E)%elem_of_list_split. destruct (reach_returns R _ _ _ E) as [(t' & a & H1 & _) H2]. rewrite E. split.
  - exists t', a. apply elem_of_app. by left.
  - destruct H2 as [H2|H2]; [left; by apply done_mono|right; by apply forwarded_mono].
Qed.
Lemma call_done ths w c : reach (ths, w) -> c ∈ done (w_trace w) -> exists t a s r l, EDone t c s r ∈ w_trace w /\ settled cf w c a s r l /\ story c (w_trace w) = l ++ [EDone t c s r].
Proof.
  intros R H. unfold done in H. apply elem_of_list_bind in H as (ev & H1 & H2). destruct ev; try by apply elem_of_nil in H1. apply elem_of_list_singleton in H1 as <-.
  destruct (st_done (proj1 (reach_staged R)) H2) as (a & l & H3 & H4). eexists _, _, _, _, _. eauto.
Qed.
Lemma call_forwarded ths w t t' c a : reach (ths, w) -> w_crash w = None -> EStart t c a ∈ w_trace w -> EReturn t' c ∈ w_trace w -> has_transport cf a = true ->
  exists n r, EAgg t (kind_of (ap_request a)) n (Some c) ∈ w_trace w /\ calls (kind_of (ap_request a)) (w_aggs w) !! n = Some (agg_call_of (ap_request a), r) /\
    if status_eqb (rs_status r) SNotFound then exists m, forwards c (w_trace w) = [ETransport t m (FromCall c) (ap_request a)]
    else forwards c (w_trace w) = [] /\ exists t'', EDone t'' c (rs_status r) (rs_reply r) ∈ w_trace w.
Proof.
  intros R Hc Hs Hr Ht. pose proof (reach_progress R Hc Hs) as P.
  assert (forall t1 l, story c (w_trace w) = EStart t1 c a :: l -> t1 = t) as Eq. { intros t1 l E. apply story_start in E. by destruct (start_unique R Hs E). }
  assert (forall ev, concerns c ev = true -> ev ∈ story c (w_trace w) -> ev ∈ w_trace w) as Hin. { intros ev H1 H2. by apply (@story_elem c (w_trace w) ev H1). }
  assert (forall ev, concerns c ev = true -> ev ∈ w_trace w -> ev ∈ story c (w_trace w)) as Hin'. { intros ev H1 H2. by apply (@story_elem c (w_trace w) ev H1). }
  rewrite forwards_story.
  assert (forall c', concerns c' (EAgg t (kind_of (ap_request a)) 0 (Some c')) = true) as _ by (intros; apply Nat.eqb_refl).
  assert ((forall ev, concerns c ev = true -> ev ∈ story c (w_trace w) -> match ev with EDone _ _ _ _ | ETransport _ _ _ _ => False | _ => True end) -> False) as Hno.
  { intros H. destruct (returned_known R Hr) as [_ [Hd|(t1 & n & q & Hf)]].
    - destruct (call_done R Hd) as (t1 & a1 & s & r & l & H1 & _). apply (H (EDone t1 c s r)); [cbn; apply Nat.eqb_refl|]. apply Hin'; [cbn; apply Nat.eqb_refl|done].
    - apply (H (ETransport t1 n (FromCall c) q)); [cbn; apply Nat.eqb_refl|]. apply Hin'; [cbn; apply Nat.eqb_refl|done]. }
  remember (story c (w_trace w)) as l eqn:El. destruct P as [t1|t1 n r H1 H2|t1 n r i H1 H2 H3|t1 s r l S].
  - destruct Hno. intros ev _ H. apply elem_of_list_singleton in H as ->. done.
  - destruct Hno. intros ev _ H. rewrite !elem_of_cons, elem_of_nil in H. by destruct_or? H; subst ev.
  - rewrite (Eq t1 _ eq_refl) in *. exists n, r. split; [apply Hin; [cbn; apply Nat.eqb_refl|set_solver]|]. split; [done|]. rewrite H3. exists i. unfold forwards. cbn. by rewrite Nat.eqb_refl.
  - destruct S as [t2 H|t2 n r H1 H2 H3|t2 t3 n r i s rp b H1 H2 H3 H4]; [congruence| |]; rewrite (Eq t2 _ eq_refl) in *.
    + exists n, r. split; [apply Hin; [cbn; apply Nat.eqb_refl|set_solver]|]. split; [done|]. destruct (status_eqb _ _) eqn:E; [by apply status_eqb_eq in E|].
      split; [done|]. exists t1. apply Hin; [cbn; apply Nat.eqb_refl|set_solver].
    + exists n, r. split; [apply Hin; [cbn; apply Nat.eqb_refl|set_solver]|]. split; [done|]. rewrite H3. exists i. unfold forwards. cbn. by rewrite Nat.eqb_refl.
Qed.
Lemma call_null ths w t t' c a : reach (ths, w) -> w_crash w = None -> EStart t c a ∈ w_trace w -> EReturn t' c ∈ w_trace w -> has_transport cf a = false ->
  exists t'', story c (w_trace w) = [EStart t c a; EDone t'' c SInvalidArgument RpNone].
Proof.
  intros R Hc Hs Hr Ht. pose proof (reach_progress R Hc Hs) as P.
  assert (forall t1 l, story c (w_trace w) = EStart t1 c a :: l -> t1 = t) as Eq. { intros t1 l E. apply story_start in E. by destruct (start_unique R Hs E). }
  assert (forall ev, concerns c ev = true -> ev ∈ w_trace w -> ev ∈ story c (w_trace w)) as Hin'. { intros ev H1 H2. by apply (@story_elem c (w_trace w) ev H1). }
  remember (story c (w_trace w)) as l eqn:El. destruct P as [t1|t1 n r H1 H2|t1 n r i H1 H2 H3|t1 s r l S]; [|congruence|congruence|].
  - exfalso. destruct (returned_known R Hr) as [_ [Hd|(t2 & n & q & Hf)]].
    + destruct (call_done R Hd) as (t2 & a1 & s & r & l & H1 & _). assert (EDone t2 c s r ∈ [EStart t1 c a]) as H; [apply Hin'; [cbn; apply Nat.eqb_refl|done]|]. by apply elem_of_list_singleton in H.
    + assert (ETransport t2 n (FromCall c) q ∈ [EStart t1 c a]) as H; [apply Hin'; [cbn; apply Nat.eqb_refl|done]|]. by apply elem_of_list_singleton in H.
  - destruct S; try congruence. rewrite (Eq _ _ eq_refl). by exists t1.
Qed.
(** The aggregators are asked only for calls that have a transport. *)
Definition for_user (call : agg_call) : bool := match call with OnCheck (CCheck _) | OnQuota (QQuota _) | OnReport (RReport _) => true | _ => false end.
Definition asked_for w (k : kind) (n : nat) (call : agg_call) : Prop :=
  exists t c a, EAgg t k n (Some c) ∈ w_trace w /\ EStart t c a ∈ w_trace w /\ has_transport cf a = true /\ call = agg_call_of (ap_request a).
Lemma none_not_user call tr : justified call tr -> for_user call = true -> exists t c a, EStart t c a ∈ tr /\ call = agg_call_of (ap_request a).
Proof. destruct call as [[]|[]|[]]; try done; cbn; intros (t & c & a & H & E) _; exists t, c, a; split; try done; by rewrite E. Qed.
Definition not_for_user (_ : nat) i : Prop := match i with IAgg call None | IBody call None => for_user call = false | _ => True end.
Lemma reach_not_for_user ths w : reach (ths, w) -> each not_for_user ths.
Proof.
  revert ths w. refine (reach_ind' (fun ths w => each not_for_user ths) _ _ _).
  - by intros a _ t st i E.
  - intros ths w _ IH _. by apply each_spawn.
  - intros ths w t i rest new w' R IH Hc Ht E. eapply each_step; [exact IH|done|done|]. assert (not_for_user t i) as Hi by (eapply IH; [done|apply elem_of_list_here]).
    intros j Hj. destruct E; try (by in_new Hj).
    + rewrite !elem_of_app, elem_of_list_singleton, elem_of_list_fmap in Hj. destruct Hj as [->|[(q & -> & _)|[Hj|Hj]]]; [done|done|in_new Hj|in_new Hj].
Qed.
Lemma reach_asked_for ths w k n call r : reach (ths, w) -> calls k (w_aggs w) !! n = Some (call, r) -> for_user call = true -> asked_for w k n call.
Proof.
  intros R. revert k n call r. revert R. refine (reach_ind' (fun ths w => forall k n call r, calls k (w_aggs w) !! n = Some (call, r) -> for_user call = true -> asked_for w k n call) _ _ _ (ths := ths) (w := w)); clear ths w.
  - intros a Ha k n call r. cbn [new_world w_aggs]. by rewrite (proj2 (new_aggs_sequential debug _ md5 _ _ Ha)).
  - done.
  - intros ths w t i rest new w' R IH Hc Ht E k n call r. destruct (estep_trace E) as (evs & Htr).
    assert (asked_for w k n call -> asked_for w' k n call) as Hm.
    { intros (t1 & c & a & H1 & H2 & H3). exists t1, c, a. rewrite Htr, !elem_of_app. by auto. }
    destruct E; wsimpl; try (intros X1 X2; apply Hm; by eapply IH).
    intros H1 H2. destruct (agg_step_calls _ _ _ _ _ _ _ _ H) as [C1 C2]. destruct (decide (k = call_kind call0)) as [->|Ne]; [|rewrite C2 in H1 by done; apply Hm; by eapply IH].
    rewrite C1 in H1. apply lookup_app_Some in H1 as [H1|[Hn H1]]; [apply Hm; by eapply IH|]. apply list_lookup_singleton_Some in H1 as [Hz [= <- <-]].
    assert (n = length (calls (call_kind call0) (w_aggs w))) as -> by lia. destruct u as [[c a']|].
    + destruct (st_each (proj1 (reach_staged R)) _ Ht (elem_of_list_here _ _)) as (S1 & S2 & S3). exists t, c, a'. wsimpl. rewrite !elem_of_app, !elem_of_list_singleton.
      split; [by right|]. split; [left; by eapply story_start|]. done.
    + pose proof (reach_not_for_user R _ Ht (elem_of_list_here _ _)) as Hu. cbn in Hu. congruence.
Qed.
Lemma agg_numbered ths w k : reach (ths, w) -> agg_numbers k (w_trace w) = seq 0 (length (calls k (w_aggs w))).
Proof.
  refine (reach_ind' (fun ths w => agg_numbers k (w_trace w) = seq 0 (length (calls k (w_aggs w)))) _ _ _ (ths := ths) (w := w)); clear ths w.
  - intros a Ha. cbn [new_world w_aggs w_trace]. by rewrite (proj2 (new_aggs_sequential debug _ md5 _ _ Ha)).
  - done.
  - intros ths w t i rest new w' R IH Hc Ht E. assert (forall tr ev, agg_numbers k (tr ++ [ev]) = agg_numbers k tr ++ agg_numbers k [ev]) as Hs by (intros; unfold agg_numbers; by rewrite bind_app).
    destruct E; wsimpl; rewrite ?Hs; try (unfold agg_numbers at 2; cbn [mbind list_bind app]; rewrite ?app_nil_r; try unfold agg_numbers at 2; cbn [mbind list_bind app]; rewrite ?app_nil_r; exact IH); try exact IH.
    unfold agg_numbers at 2. cbn [mbind list_bind app]. rewrite app_nil_r. destruct (agg_step_calls _ _ _ _ _ _ _ _ H) as [C1 C2].
    destruct (decide (call_kind call = k)) as [<-|Ne].
    + rewrite C1, app_length, seq_app, IH. done.
    + rewrite C2 by done. by rewrite app_nil_r.
Qed.

(** ** The delivery of flushed items *)
Definition after_agg tr ev : Prop :=
  match ev with
  | ECallback t k n _ | EDropped t k n _ | EAggReturn t k n => exists u, EAgg t k n u ∈ tr
  | _ => True
  end.
Lemma todo_agg ths w t i rest k n : reach (ths, w) -> w_crash w = None -> ths !! t = Some (i :: rest) -> todo k n i <> [] -> exists u, EAgg t k n u ∈ w_trace w.
Proof.
  intros R Hc Ht Hi. pose proof (reach_delivery R Hc k n) as D. unfold delivery in D.
  assert ((i :: rest) ≫= todo k n <> []) as Hn by (rewrite bind_cons; intros [H _]%app_nil; done).
  destruct (calls k (w_aggs w) !! n) as [[call r]|]; [|destruct D as [D _]; by rewrite (D _ _ Ht) in Hn].
  destruct D as (t0 & st & u & H1 & H2 & H3 & H4 & H5). destruct (decide (t = t0)) as [->|Ne]; [by exists u|]. by rewrite (H4 _ _ Ht Ne) in Hn.
Qed.
Lemma reach_after_agg ths w : reach (ths, w) -> each_event after_agg (w_trace w).
Proof.
  revert ths w. refine (reach_ind' (fun ths w => each_event after_agg (w_trace w)) _ _ _); [|done|].
  - intros a _ l1 ev l2 E. by destruct l1.
  - intros ths w t i rest new w' R IH Hc Ht E. destruct E; wsimpl; try done; repeat apply each_event_snoc; try done; cbn [after_agg];
      eapply todo_agg; try done; cbn [todo]; rewrite bool_decide_true by done; done.
Qed.
Lemma delivered_so_far ths w k n call r : reach (ths, w) -> w_crash w = None -> calls k (w_aggs w) !! n = Some (call, r) ->
  exists t u gs rest, EAgg t k n u ∈ w_trace w /\ handled k n (w_trace w) = pair t <$> gs /\ (item_of <$> gs) ++ rest = (Some <$> rs_flushed r) ++ [None].
Proof.
  intros R Hc Hn. pose proof (reach_delivery R Hc k n) as D. unfold delivery in D. rewrite Hn in D. destruct D as (t & st & u & H1 & H2 & H3 & H4 & H5).
  exists t, u, (handled k n (w_trace w)).*2, (st ≫= todo k n). split; [done|]. split.
  - clear -H3. induction (handled k n (w_trace w)) as [|[a b] l IH]; [done|]. apply Forall_cons in H3 as [H3 H4]. cbn in *. subst a. f_equal. by apply IH.
  - by rewrite <- list_fmap_compose.
Qed.
Lemma not_dropped ths w k n t q : reach (ths, w) -> (t, Dropped q) ∈ handled k n (w_trace w) -> exists t', EDisconnect t' k ∈ w_trace w.
Proof.
  intros R H. apply elem_of_list_bind in H as (ev & H1 & H2). apply elem_of_list_split in H2 as (l1 & l2 & E).
  destruct ev as [| |t0 k0 n0 q0|t0 k0 n0 q0|t0 k0 n0| | | | | | | |]; cbn in H1; try (by apply elem_of_nil in H1); case_bool_decide as Hb; try (by apply elem_of_nil in H1); destruct Hb as [Hk Hb]; rewrite Hk in E; apply elem_of_list_singleton in H1; try done.
  destruct (reach_in_order R _ _ _ E) as (t' & H). exists t'. rewrite E. apply elem_of_app. by left.
Qed.
Lemma returned_given ths w t k n : reach (ths, w) -> w_crash w = None -> EAggReturn t k n ∈ w_trace w ->
  exists call r, calls k (w_aggs w) !! n = Some (call, r) /\
    ((forall t', EDisconnect t' k ∉ w_trace w) -> handled k n (w_trace w) = ((fun q => (t, Gave q)) <$> rs_flushed r) ++ [(t, Returned)]).
Proof.
  intros R Hc H. destruct (returned_delivered R Hc H) as (call & r & u & H1 & H2 & gs & H3 & H4). exists call, r. split; [done|]. intros Hd. rewrite H3. f_equal.
  assert (forall q, Dropped q ∉ gs) as Hg.
  { intros q Hq. destruct (@not_dropped ths w k n t q R) as (t' & Hx); [|by apply (Hd t')]. rewrite H3. apply elem_of_app. left. apply elem_of_list_fmap. by exists (Dropped q). }
  clear -H4 Hg. revert H4 Hg. generalize (rs_flushed r). induction gs as [|g gs IH]; intros [|q qs] E Hg; try done. injection E as E1 E2. cbn. f_equal.
  - destruct g; cbn in E1; [by injection E1 as ->| |done]. destruct (Hg q0). apply elem_of_list_here.
  - apply IH; [done|]. intros q' H. apply (Hg q'). by apply elem_of_list_further.
Qed.
End facts.
