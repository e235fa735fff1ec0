(** How old the answers are that the quota cache gives: proofs for PropsClient7.v. *)
From Verif Require Import Base Proto Signature SignatureSpec OpAgg OpAggSpec Lru LruSpec LruSim Timeout TimeoutSign Agg QuotaAgg QuotaFuel QuotaSim QuotaStep QuotaStep2 QuotaTrace QuotaAggSpec QuotaCall QuotaInv QuotaMove QuotaLife QuotaAggClaims.
From stdpp Require Import gmap list.
Local Open Scope Z_scope.
Set Implicit Arguments.

Section fresh.
Variable debug : bool.
Variable ord : hash_order.
Variable md5 : string -> string.
Variable clk : nat -> Z.
Variable cf : quota_config.
Notation mx := (qp_entries (qf_options cf)).
Notation idle := (idle_of cf).
Hypothesis Hclk : proper_clock clk.
Notation sg := (qsig md5).
Notation Good := (Good clk cf idle).
Notation item := (ReturnAllocateQuotaRequest ord cf).
Notation moved := (moved debug ord md5 clk cf idle).
Notation owned := (owned debug md5).
Notation qreach := (qreach debug ord md5 clk cf).
Notation qrun := (qrun debug ord md5 clk cf).
Notation returns := (returns debug ord md5 clk cf).
Notation passes := (passes ord clk cf).
Implicit Types (l : list cell) (x y : cell) (e : quota_elem) (q : quota_request) (ev : quota_event) (st : quota_agg) (h : list quota_event).

(** An entry that is in flight after a call was in flight before, or was handed out. *)
Lemma flight_pass fl lo hi l l1 its T x1 : passes fl lo hi l l1 its T -> NoDup (c_key <$> l) -> x1 ∈ l1 ->
  exists x, x ∈ l /\ c_key x = c_key x1 /\ (c_elem x1 = c_elem x \/ (item (c_elem x) ∈ its /\ qe_in_flight (c_elem x1) = true)).
Proof.
  intros P N Hx. destruct (@pass_cell debug ord md5 clk cf Hclk _ _ _ _ _ _ _ _ P N Hx) as (x & s & Hin & _ & E2 & E3 & _). exists x. split; [done|]. split; [done|].
  destruct s; [|by left]. destruct E3 as (_ & Hi & i & _ & ->). right. done.
Qed.
Lemma flight_moved call fl tk nx l res fl' tk' nx' l' x' : moved call fl tk nx l res fl' tk' nx' l' -> NoDup (c_key <$> l) -> x' ∈ l' -> qe_in_flight (c_elem x') = true ->
  (exists q, call = QQuota q /\ sg q = c_key x' /\ q ∈ qres_flushed res) \/
  exists x, x ∈ l /\ c_key x = c_key x' /\ (item (c_elem x) ∈ qres_flushed res \/ in_normal_mode (item (c_elem x)) ∈ qres_flushed res \/
    (qe_in_flight (c_elem x) = true /\ forall q r, call = QResponse q r -> sg q <> c_key x')).
Proof.
  intros M N Hx Hf. destruct M as [q fl tk nx l Hw|q fl tk nx l T l1 tk1 its a x b e Hw Ex -> Hk CE|q fl tk nx l T l1 tk1 its T2 tk2 l2 its2 l' Hw Ex NI P2 PE|
    q r fl tk nx l T l1 tk1 its a x b Ex -> Hk|q r fl tk nx l T l1 tk1 its Ex NI|fl tk nx l T l1 tk1 its Ex|]; cbn [qres_flushed].
  - right. exists x'. split_and!; try done. right. right. done.
  - destruct Ex as (P & _). apply elem_mid in Hx as [->|Hx].
    + destruct (flight_pass P N (x1:=x) ltac:(set_solver)) as (x0 & H1 & H2 & H3). right. exists x0. split; [done|]. split.
      { unfold c_key at 2. cbn [c_elem]. rewrite (counted_sig _ _ _ CE), looked_sig. exact H2. }
      destruct (@counted_same debug _ _ _ CE) as (_ & _ & _ & C4 & _). cbn [c_elem] in Hf. rewrite C4 in Hf.
      destruct (looked_cases ord clk cf (c_elem x) tk1 its) as [[Em Hf']|[[Em Hf']|(i & it & Em & _ & Hf' & ->)]]; rewrite Em in *; cbn [fst snd] in *.
      * destruct H3 as [H3|[H3 _]]; [|by left]. right. right. split; [by rewrite <- H3|done].
      * congruence.
      * destruct H3 as [H3|[_ H3]]; [|congruence]. rewrite H3. destruct (is_positive (c_elem x0)); [left|right; left]; set_solver.
    + destruct (flight_pass P N (x1:=x') ltac:(set_solver)) as (x0 & H1 & H2 & H3). right. exists x0. split; [done|]. split; [done|].
      destruct H3 as [H3|[H3 _]]; [right; right; split; [by rewrite <- H3|done]|left].
      destruct (looked_cases ord clk cf (c_elem x) tk1 its) as [[Em Hf']|[[Em Hf']|(i & it & Em & _ & Hf' & ->)]]; rewrite Em; cbn; set_solver.
  - destruct Ex as (P & _). rewrite PE in Hx. apply elem_of_cons in Hx as [->|Hx].
    { left. exists q. split_and!; try done. set_solver. }
    right. destruct (flight_pass P2 (@passes_keys ord clk cf _ _ _ _ _ _ _ P N) Hx) as (x1 & H1 & H2 & H3). destruct (flight_pass P N H1) as (x0 & G1 & G2 & G3).
    exists x0. split; [done|]. split; [congruence|]. destruct G3 as [G3|[G3 _]]; [|left; set_solver].
    destruct H3 as [H3|[H3 _]]; [right; right; split; [congruence|done]|left; rewrite <- G3; set_solver].
  - destruct Ex as (P & _). pose proof (@passes_keys ord clk cf _ _ _ _ _ _ _ P N) as N1. apply elem_mid in Hx as [->|Hx].
    { exfalso. cbn [c_elem] in Hf. unfold set_quota_response in Hf. by destruct (0 <? _). }
    destruct (flight_pass P N (x1:=x') ltac:(set_solver)) as (x0 & H1 & H2 & H3). right. exists x0. split; [done|]. split; [done|].
    destruct H3 as [H3|[H3 _]]; [|by left]. right. right. split; [by rewrite <- H3|]. intros q' r' [= <- <-] E. apply (nodup_mid c_key a x b N1 Hx). congruence.
  - destruct Ex as (P & _). destruct (flight_pass P N Hx) as (x0 & H1 & H2 & H3). right. exists x0. split; [done|]. split; [done|].
    destruct H3 as [H3|[H3 _]]; [|by left]. right. right. split; [by rewrite <- H3|]. intros q' r' [= <- <-] E. apply NI. rewrite E. by apply elem_of_list_fmap_1.
  - destruct Ex as (P & _). destruct (flight_pass P N Hx) as (x0 & H1 & H2 & H3). right. exists x0. split; [done|]. split; [done|].
    destruct H3 as [H3|[H3 _]]; [|by left]. right. right. split; [by rewrite <- H3|done].
  - by apply elem_of_nil in Hx.
Qed.

(** After the last request for an entry in flight no answer has come. *)
Definition waiting h x : Prop := qe_in_flight (c_elem x) = true ->
  exists h1 ev h2, h = h1 ++ ev :: h2 /\ hands_out md5 (c_key x) ev /\ Forall (fun ev => ~ hands_out md5 (c_key x) ev) h2 /\ Forall (fun ev => ~ responds md5 (c_key x) ev) h2.
Lemma run_waiting fl tk nx l st h : qrun fl tk nx l st h -> told_apart md5 h -> Forall (waiting h) l.
Proof.
  induction 1 as [c u G Hn|fl tk nx l st h call res fl' l' c' u' Hr IH M G']; [constructor|].
  intros A. destruct (qrun_good Hr) as (c & u & -> & G & Et & En). pose proof (run_well Hclk Hr) as W. assert (told_apart md5 h) as A0 by (intros ev1 ev2 q1 q2 I1 I2; apply A; set_solver). specialize (IH A0).
  set (ev := QuotaEvent call res tk (l_tick c') (QuotaAgg (Some c') u' fl')) in *. apply Forall_forall. intros x' Hx' Hf.
  assert (Dec : hands_out md5 (c_key x') ev \/ ~ hands_out md5 (c_key x') ev).
  { destruct (decide (Exists (fun q => sg q = c_key x') (qres_flushed (qv_result ev)))); [by left|by right]. }
  destruct Dec as [Ho|Ho]; [by exists h, ev, []|].
  destruct (flight_moved M (good_keys G) Hx' Hf) as [(q & Ec & Hk & Hq)|(x & Hx & Hk & Hc)].
  { destruct Ho. apply Exists_exists. by exists q. }
  pose proof (rw_owned W) as O. rewrite Forall_forall in O, IH. pose proof (item_sig ord cf Hclk A0 (O x Hx)) as I. rewrite Hk in I.
  destruct Hc as [Hc|[Hc|[Hc Hn]]].
  - destruct Ho. apply Exists_exists. by eexists.
  - destruct Ho. apply Exists_exists. eexists. split; [exact Hc|]. by rewrite normal_sig.
  - destruct (IH x Hx Hc) as (h1 & v & h2 & -> & F1 & F2 & F3). rewrite Hk in *. exists h1, v, (h2 ++ [ev]). split; [by rewrite <- app_assoc|]. split; [done|].
    split; apply Forall_app; (split; [done|]); repeat constructor; [done|]. intros (q & r & E & Hs). by apply (Hn q r E).
Qed.

(** A Quota call hands out a request for its key, or the last one was handed out less than the refresh interval ago or is
    not answered yet. *)
Lemma quota_fresh st h q st' res : 0 < mx -> qreach st h -> told_apart md5 h -> returns (QQuota q) st (st', res) -> well_addressed cf q ->
  Exists (fun it => sg it = sg q) (qres_flushed res) \/
  exists h1 ev h2, h = h1 ++ ev :: h2 /\ hands_out md5 (sg q) ev /\ Forall (fun v => ~ hands_out md5 (sg q) v) h2 /\
    (Forall (fun v => ~ responds md5 (sg q) v) h2 \/
     exists now before, qduring clk now (QuotaEvent (QQuota q) res (qreadings st) (qreadings st') st') /\ qduring clk before ev /\ now - before < refresh_interval_in_cycle cf).
Proof.
  intros Hm Hr A Hs Hw. destruct (reach_run Hclk Hm Hr) as (fl & tk & nx & l & R). destruct (qrun_good R) as (c & u & -> & G & <- & <-).
  destruct (step_moved Hclk Hm G Hs) as (c' & u' & l' & fl' & -> & G' & M). pose proof (run_well Hclk R) as W. pose proof (run_waiting R A) as Wt. rewrite Forall_forall in Wt.
  remember (QQuota q) as call eqn:Ec. remember (l_tick c) as tk0 eqn:E0. remember (l_tick c') as tk9 eqn:E9. remember (p_next u) as nx0 eqn:E1. remember (p_next u') as nx9 eqn:E2. destruct M as [? fl tk nx l Hw'|q' fl tk nx l T l1 tk1 its a x b e Hw' Ex -> Hk CE|q' fl tk nx l T l1 tk1 its T2 tk2 l2 its2 l' Hw' Ex NI P2 PE|
    |  | |]; try done; injection Ec as ->; cbn [qres_flushed].
  - done.
  - destruct Ex as (P & _). destruct (flight_pass P (good_keys G) (x1:=x) ltac:(set_solver)) as (x0 & H1 & H2 & H3).
    pose proof (rw_owned W) as O. rewrite Forall_forall in O. pose proof (item_sig ord cf Hclk A (O x0 H1)) as I.
    assert (Hx0 : c_key x0 = sg q) by congruence. rewrite Hx0 in I.
    assert (its ⊆ (looked ord clk cf (c_elem x) tk1 its).2) as Sub.
    { destruct (looked_cases ord clk cf (c_elem x) tk1 its) as [[Em Hf']|[[Em Hf']|(i & it & Em & _ & Hf' & ->)]]; rewrite Em; cbn; set_solver. }
    destruct H3 as [H3|[H3 _]]; [|left; apply Exists_exists; eexists; split; [by apply Sub|done]]. rewrite H3 in *.
    unfold looked in *. destruct (qe_in_flight (c_elem x0)) eqn:Ef.
    + right. destruct (Wt x0 H1 Ef) as (h1 & v & h2 & -> & F1 & F2 & F3). rewrite Hx0 in *. exists h1, v, h2. split_and!; try done. by left.
    + destruct (Z.leb_spec (refresh_interval_in_cycle cf) (clk tk1 - qe_last (c_elem x0))) as [Hi|Hi].
      * left. cbn. apply Exists_app. right. constructor. destruct (is_positive _); [done|]. by rewrite normal_sig.
      * right. pose proof (rw_lives W) as Lv. rewrite Forall_forall in Lv. destruct (Lv x0 H1) as [(h0 & ev0 & T0 & E & _ & _ & _ & _ & _ & _ & L7) _].
        destruct (proj2 (L7 A)) as (T1 & v & T2 & ET & Ho & Hd & F). rewrite Hx0 in *.
        exists (h0 ++ T1), v, T2. split; [by rewrite E, ET, <- app_assoc|]. split; [done|]. split; [done|]. right. exists (clk tk1), (qe_last (c_elem x0)). split; [|done].
        exists tk1. split; [|done]. cbn [qv_from qv_to qreadings qg_cache]. assert (tk <= tk1)%nat by apply P. cbn in E9. lia.
  - left. apply Exists_app. right. by constructor.
Qed.
End fresh.
