(** Histories of the quota aggregator as sequences of moves, and the life of each cached entry. *)
From Verif Require Import Base Proto Signature SignatureSpec OpAgg OpAggSpec Lru LruSpec LruSim Timeout TimeoutSign Agg AggCache QuotaAgg QuotaFuel QuotaSim QuotaStep QuotaStep2 QuotaTrace QuotaAggSpec QuotaCall QuotaInv QuotaMove.
From stdpp Require Import gmap list.
Local Open Scope Z_scope.
Set Implicit Arguments.

(** The idle time of the cache in clock cycles; negative if entries are never considered idle. *)
Definition idle_of (cf : quota_config) : Z := match cycles_of_ms (qp_refresh_ms (qf_options cf)) with Ok o => match o with Some n => n | None => -1 end | _ => -1 end.

Section life.
Variable debug : bool.
Variable ord : hash_order.
Variable md5 : string -> string.
Variable clk : nat -> Z.
Variable cf : quota_config.
Notation mx := (qp_entries (qf_options cf)).
Notation idle := (idle_of cf).
Hypothesis Hclk : proper_clock clk.
Notation sg := (qsig md5).
Notation Good := (Good clk cf idle).
Notation item := (ReturnAllocateQuotaRequest ord cf).
Notation moved := (moved debug ord md5 clk cf idle).
Notation owned := (owned debug md5).
Notation qreach := (qreach debug ord md5 clk cf).
Implicit Types (l : list cell) (x y : cell) (e : quota_elem) (q : quota_request) (ev : quota_event)
  (st : quota_agg) (h : list quota_event).
Let Hmono := proj1 Hclk.
Let Hpos := proj2 Hclk.

Inductive qrun : bool -> nat -> nat -> list cell -> quota_agg -> list quota_event -> Prop :=
| qrun_new c u : Good c u [] -> p_next u = 0%nat -> qrun false (l_tick c) 0 [] (QuotaAgg (Some c) u false) []
| qrun_step fl tk nx l st h call res fl' l' c' u' : qrun fl tk nx l st h -> moved call fl tk nx l res fl' (l_tick c') (p_next u') l' -> Good c' u' l' ->
    qrun fl' (l_tick c') (p_next u') l' (QuotaAgg (Some c') u' fl') (h ++ [QuotaEvent call res tk (l_tick c') (QuotaAgg (Some c') u' fl')]).

Lemma qrun_good fl tk nx l st h : qrun fl tk nx l st h -> exists c u, st = QuotaAgg (Some c) u fl /\ Good c u l /\ l_tick c = tk /\ p_next u = nx.
Proof. destruct 1; eauto 10. Qed.

Lemma new_good st : 0 < mx -> NewQuotaAggregator ord clk cf = Ok st ->
  exists c u, st = QuotaAgg (Some c) u false /\ Good c u [] /\ p_next u = 0%nat.
Proof.
  intros Hm. unfold NewQuotaAggregator. assert (0 <? mx = true) as -> by (by apply Z.ltb_lt).
  destruct (cycles_of_ms _) as [o| | |] eqn:Eo; try done. cbn [obind].
  assert (R : forall t, Good (Lru ∅ 0 ∅ ∅ [] 0 mx 0 (match o with Some n => n | None => -1 end) false t) (Pool ∅ 0 []) []).
  { intros t. exists []. assert (Shape mx (match o with Some n => n | None => -1 end) [] (Lru ∅ 0 ∅ ∅ [] 0 mx 0 (match o with Some n => n | None => -1 end) false t) []).
    { constructor; try done; try constructor; cbn.
      - intros H. by rewrite lookup_empty in H.
      - by intros ?%elem_of_nil.
      - intros H. by rewrite lookup_empty in H.
      - intros (e & He & _). by apply elem_of_nil in He.
      - by intros ? ?%elem_of_nil. }
    unfold idle_of. rewrite Eo. split_and!; try (by constructor); [|cbn; lia|split; constructor].
    constructor; try done; try constructor; cbn; try done.
    all: try (by intros ? ?%elem_of_nil). all: intros; set_solver. }
  destruct o as [i|]; cbn [SetTimeout].
  - pose proof (cycles_nonneg _ _ Eo) as Hi. unfold NewCache. cbn [l_idle fst snd]. change (0 <=? -1) with false. cbn [andb]. unfold DiscardIdle.
    destruct (i <? 0) eqn:Ei; [apply Z.ltb_lt in Ei; lia|].
    cbn [idle_loop after_now set_tick set_idle set_lru fst snd l_list list_tail last l_tick obind].
    intros [= <-]. eexists _, _. split; [reflexivity|]. split; [apply R|done].
  - cbn [obind]. intros [= <-]. eexists _, _. split; [reflexivity|]. split; [apply R|done].
Qed.
Lemma reach_run st h : 0 < mx -> qreach st h -> exists fl tk nx l, qrun fl tk nx l st h.
Proof.
  intros Hm. induction 1 as [st Hn|st h call st' res Hr (fl & tk & nx & l & IH) Hs].
  - destruct (new_good Hm Hn) as (c & u & -> & G & Hx). eexists _, _, _, _. by constructor.
  - destruct (qrun_good IH) as (c & u & -> & G & <- & <-). destruct (step_moved Hclk Hm G Hs) as (c' & u' & l' & fl' & -> & G' & M).
    eexists _, _, _, _. by econstructor.
Qed.

(** ** Nothing is cached *)
Lemma reach_off st h : mx <= 0 -> qreach st h -> qg_cache st = None /\ Forall (fun ev => qg_cache (qv_after ev) = None /\ qres_flushed (qv_result ev) = [] /\ granted_op ev = []) h.
Proof.
  intros Hm. induction 1 as [st Hn|st h call st' res Hr [IH1 IH2] [n Hs]].
  - unfold NewQuotaAggregator in Hn. destruct (Z.ltb_spec 0 mx); [lia|]. injection Hn as <-. done.
  - assert (qg_cache st' = None /\ qres_flushed res = [] /\ (forall a b, granted_op (QuotaEvent call res a b st') = [])) as (H1 & H2 & H3).
    { destruct call as [q|q r| |]; cbn [qstep] in Hs.
      - unfold Quota in Hs. rewrite IH1 in Hs. destruct (negb _); [by injection Hs as <- <-|]. by destruct (qr_operation q); injection Hs as <- <-.
      - unfold QCacheResponse in Hs. rewrite IH1 in Hs. by injection Hs as <- <-.
      - unfold QFlush in Hs. rewrite IH1 in Hs. by injection Hs as <- <-.
      - unfold QFlushAll in Hs. rewrite IH1 in Hs. by injection Hs as <- <-. }
    split; [done|]. apply Forall_app. split; [done|]. constructor; [|constructor]. cbn. split_and!; try done.
Qed.

(** ** The life of an entry *)
Record lives h x : Prop := {
  lv_born : exists h0 ev0 T, h = h0 ++ ev0 :: T /\ qasks md5 cf (c_key x) ev0 /\ qres_response (qv_result ev0) = Some empty_quota_response /\ hands_out md5 (c_key x) ev0 /\
    Forall (fun ev => entry (qv_after ev) (c_key x) <> Some (c_addr x)) h0 /\
    Forall (fun ev => entry (qv_after ev) (c_key x) = Some (c_addr x)) (ev0 :: T) /\
    ((qe_response (c_elem x) = empty_quota_response /\ Forall (fun ev => ~ responds md5 (c_key x) ev) T) \/
     (exists T1 ev T2, T = T1 ++ ev :: T2 /\ responds_with md5 (c_key x) (qe_response (c_elem x)) ev /\ Forall (fun ev => ~ responds md5 (c_key x) ev) T2)) /\
    (told_apart md5 h -> (qe_in_flight (c_elem x) = false -> exists T1 ev T2, T = T1 ++ ev :: T2 /\ responds md5 (c_key x) ev /\ Forall (fun ev => ~ hands_out md5 (c_key x) ev) T2) /\
      exists T1 ev T2, ev0 :: T = T1 ++ ev :: T2 /\ hands_out md5 (c_key x) ev /\ qduring clk (qe_last (c_elem x)) ev /\ Forall (fun ev => ~ hands_out md5 (c_key x) ev) T2);
  lv_bare : is_positive (c_elem x) = false -> qe_agg (c_elem x) = None }.

Lemma told_apart_app h h' : told_apart md5 (h ++ h') -> told_apart md5 h.
Proof. intros A ev1 ev2 q1 q2 H1 H2. apply A; set_solver. Qed.

Record runs_well (fl : bool) (tk nx : nat) l h : Prop := {
  rw_owned : Forall (owned h) l;
  rw_lives : Forall (lives h) l;
  rw_flag : fl = true -> Exists (fun ev => qv_call ev = QFlushAllC) h;
  rw_old : Forall (fun ev => forall k a, entry (qv_after ev) k = Some a -> (a < nx)%nat) h;
  rw_time : Forall (fun ev => (qv_from ev <= qv_to ev)%nat /\ (qv_to ev <= tk)%nat) h;
  rw_last : Forall (fun x => exists i, (i < tk)%nat /\ qe_last (c_elem x) = clk i) l }.

Lemma moved_ticks call fl tk nx l res fl' tk' nx' l' : moved call fl tk nx l res fl' tk' nx' l' -> (tk <= tk')%nat /\ (nx <= nx')%nat.
Proof.
  destruct 1; split; try lia.
  - destruct H0 as (P & _). assert (tk <= tk1)%nat by apply P. pose proof (looked_tick ord clk cf (c_elem x) tk1 its). lia.
  - destruct H0 as (P & _). assert (tk <= tk1)%nat by apply P. assert (S (S tk1) <= tk2)%nat by apply H2. lia.
  - destruct H as (P & _). apply P.
  - destruct H as (P & _). apply P.
  - destruct H as (P & _). apply P.
Qed.

Lemma run_well fl tk nx l st h : qrun fl tk nx l st h -> runs_well fl tk nx l h.
Proof.
  induction 1 as [c u G Hn|fl tk nx l st h call res fl' l' c' u' Hr IH M G'].
  { constructor; try done; by constructor. }
  destruct (qrun_good Hr) as (c & u & -> & G & Et & En). destruct (moved_ticks M) as [Mt Mn].
  set (ev := QuotaEvent call res tk (l_tick c') (QuotaAgg (Some c') u' fl')).
  assert (Forall (owned (h ++ [ev])) l') as Ow by (eapply owned_moved; [done|exact M|apply IH]).
  assert (CM : forall x', x' ∈ l' -> (cellnew md5 clk cf ev x' nx /\ p_next u' = S nx) \/ exists x s, x ∈ l /\ cellmove debug ord md5 clk cf ev l x x' s).
  { intros x' Hx'. exact (@cell_moved debug ord md5 clk cf idle Hclk call fl tk nx l res fl' _ _ l' _ x' M (good_keys G) Hx'). }
  constructor.
  - done.
  - apply Forall_forall. intros x' Hx'.
    assert (entry (qv_after ev) (c_key x') = Some (c_addr x')) as Ent by (by apply (entry_cell fl' (c_key x') (c_addr x') G'); exists x').
    destruct (CM x' Hx') as [[(q & t & Hc & Hw & Hk & Ha & He & Hd & Hf & Hp) Enx]|(x & s & Hx & Mv)].
    + split; [|by rewrite He]. exists h, ev, []. split; [done|]. split; [exists q; split_and!; done|]. split; [done|].
      assert (hands_out md5 (c_key x') ev) as Ho by (apply Exists_exists; exists q; done). split; [done|]. split.
      { pose proof (rw_old IH) as Ho'. eapply Forall_impl; [exact Ho'|]. cbn. intros ev1 H1 H2. apply H1 in H2. lia. }
      split; [by repeat constructor|]. split; [left; rewrite He; split; [done|constructor]|]. intros _. rewrite He. split; [done|].
      exists [], ev, []. split_and!; try done.
    + pose proof (rw_lives IH) as Lv. rewrite Forall_forall in Lv. destruct (Lv x Hx) as [(h0 & ev0 & T & -> & L1 & L2 & L3 & L4 & L5 & L6 & L7) Bare].
      destruct Mv as (M1 & M2 & M3 & M4 & M5 & M6 & M7 & M8 & M9 & M10). 
      assert (Hs : told_apart md5 ((h0 ++ ev0 :: T) ++ [ev]) -> hands_out md5 (c_key x) ev -> s = true).
      { intros A. intros (it & Hit & Hki)%Exists_exists. destruct (M10 _ (@told_apart_app _ _ A) (rw_owned IH) it Hit Hki) as [? _]. done. }
      assert (Hs2 : told_apart md5 ((h0 ++ ev0 :: T) ++ [ev]) -> s = true -> hands_out md5 (c_key x) ev).
      { intros A E. apply M9 in E. apply Exists_exists in E as (it & Hit & E). apply Exists_exists. exists it. split; [done|].
        pose proof (rw_owned IH) as O. rewrite Forall_forall in O. pose proof (item_sig ord cf Hclk (@told_apart_app _ _ A) (O x Hx)) as I.
        destruct E as [->| ->]; [done|]. by rewrite normal_sig. }
      rewrite M1, M2 in *. split; [|by apply M7].
      rewrite M1, M2. exists h0, ev0, (T ++ [ev]). split; [by rewrite <- app_assoc|]. split; [done|]. split; [done|]. split; [done|]. split; [done|]. split.
      { change (ev0 :: T ++ [ev]) with ((ev0 :: T) ++ [ev]). apply Forall_app. split; [done|]. by repeat constructor. }
      split.
      { destruct M6 as [M6|[M6 ->]].
        - right. exists T, ev, []. split_and!; done.
        - destruct L6 as [[L6 L6']|(T1 & v & T2 & -> & L6 & L6')].
          + left. split; [done|]. apply Forall_app. split; [done|]. by repeat constructor.
          + right. exists T1, v, (T2 ++ [ev]). split; [by rewrite <- app_assoc|]. split; [done|]. apply Forall_app. split; [done|]. by repeat constructor. }
      intros A. destruct (L7 (@told_apart_app _ _ A)) as [L8 (T1 & v & T2 & L9 & L10 & L11 & L12)]. split.
      { intros Hfl. destruct (M5 Hfl) as [R|[-> Hf]].
        - exists T, ev, []. split_and!; done.
        - destruct (L8 Hf) as (T1' & v' & T2' & -> & R & F). exists T1', v', (T2' ++ [ev]). split; [by rewrite <- app_assoc|]. split; [done|]. apply Forall_app. split; [done|].
          repeat constructor. intros H. by apply (Hs A) in H. }
      destruct s.
      { exists (ev0 :: T), ev, []. split; [done|]. split; [by apply Hs2|]. split; [apply M4|constructor]. }
      exists T1, v, (T2 ++ [ev]). split; [by rewrite app_comm_cons, L9, <- app_assoc|]. split; [done|]. split; [by rewrite M4|]. apply Forall_app. split; [done|].
      repeat constructor. intros H. by apply (Hs A) in H.
  - intros E. apply Exists_app. destruct call; try (left; apply IH; inversion M; subst; done). right. by repeat constructor.
  - apply Forall_app. split.
    + pose proof (rw_old IH) as Ho. eapply Forall_impl; [exact Ho|]. cbn. intros ev1 H1 k a H2. apply H1 in H2. lia.
    + repeat constructor. intros k a H. apply (entry_cell fl' k a G') in H as (x & Hx & _ & <-). by eapply good_fresh.
  - apply Forall_app. split; [|by repeat constructor]. pose proof (rw_time IH) as Ho. eapply Forall_impl; [exact Ho|]. cbn. lia.
  - apply Forall_forall. intros x' Hx'. pose proof (rw_last IH) as La. rewrite Forall_forall in La.
    destruct (CM x' Hx') as [[(q & t & Hc & Hw & Hk & Ha & He & Hd & Hf & Hp) Enx]|(x & s & Hx & Mv)].
    + rewrite He. destruct Hd as (i & Hi & ->). cbn in Hi. exists i. split; [lia|done].
    + destruct Mv as (M1 & M2 & M3 & M4 & _). destruct s.
      * destruct M4 as [_ (i & Hi & ->)]. cbn in Hi. exists i. split; [lia|done].
      * rewrite M4. destruct (La x Hx) as (i & Hi & ->). exists i. split; [lia|done].
Qed.
End life.
