(** Proofs about histories of the quota aggregator. *)
From Verif Require Import Base Proto Signature SignatureSpec OpAgg OpAggSpec Lru LruSpec LruSim Timeout TimeoutSign Agg QuotaAgg QuotaFuel QuotaSim QuotaStep QuotaStep2 QuotaTrace QuotaAggSpec QuotaCall QuotaInv QuotaMove QuotaLife.
From stdpp Require Import gmap list.
Local Open Scope Z_scope.
Set Implicit Arguments.

(** Names for the parts of a move. *)
Ltac parts :=
  try match goal with H : expires _ _ _ _ _ _ _ _ _ _ _ |- _ => destruct H as (P & F1 & _) end;
  try match goal with H : passes _ _ _ _ (S (S _)) _ _ _ _ _ |- _ => rename H into P2 end;
  try match goal with H : _ ∉ _ <$> _ |- _ => rename H into NI end;
  try match goal with H : QuotaCall.counted _ _ _ = _ |- _ => rename H into CE end;
  try match goal with H : _ ≡ₚ Cell _ _ _ :: _ |- _ => rename H into PE end.

Section claims.
Variable debug : bool.
Variable ord : hash_order.
Variable md5 : string -> string.
Variable clk : nat -> Z.
Variable cf : quota_config.
Notation mx := (qp_entries (qf_options cf)).
Notation idle := (idle_of cf).
Hypothesis Hclk : proper_clock clk.
Notation sg := (qsig md5).
Notation Good := (Good clk cf idle).
Notation item := (ReturnAllocateQuotaRequest ord cf).
Notation moved := (moved debug ord md5 clk cf idle).
Notation owned := (owned debug md5).
Notation qreach := (qreach debug ord md5 clk cf).
Notation qrun := (qrun debug ord md5 clk cf).
Notation returns := (returns debug ord md5 clk cf).
Implicit Types (l : list cell) (x y : cell) (e : quota_elem) (q : quota_request) (ev : quota_event) (st : quota_agg) (h : list quota_event).
Let Hmono := proj1 Hclk.
Let Hpos := proj2 Hclk.

(** ** One call after a history *)
Lemma one_call st h call res st' : 0 < mx -> qreach st h -> returns call st (st', res) ->
  exists fl c u l fl' c' u' l', st = QuotaAgg (Some c) u fl /\ st' = QuotaAgg (Some c') u' fl' /\ Good c u l /\ Good c' u' l' /\
    runs_well debug md5 clk cf fl (l_tick c) (p_next u) l h /\ moved call fl (l_tick c) (p_next u) l res fl' (l_tick c') (p_next u') l'.
Proof.
  intros Hm Hr Hs. destruct (reach_run Hclk Hm Hr) as (fl & tk & nx & l & R). destruct (qrun_good R) as (c & u & -> & G & <- & <-).
  destruct (step_moved Hclk Hm G Hs) as (c' & u' & l' & fl' & -> & G' & M). exists fl, c, u, l, fl', c', u', l'. split_and!; try done. by eapply run_well.
Qed.
Lemma reach_snoc st h ev : qreach st (h ++ [ev]) -> exists st0, qreach st0 h /\ returns (qv_call ev) st0 (st, qv_result ev) /\
  ev = QuotaEvent (qv_call ev) (qv_result ev) (qreadings st0) (qreadings st) st.
Proof.
  intros Hr. remember (h ++ [ev]) as h' eqn:Eh. destruct Hr as [st1 H1|st0 h0 call st1 res H1 H2]; [by destruct h|]. apply app_inj_tail in Eh as [-> <-]. by exists st0.
Qed.
Lemma cached_on st h k : qreach st h -> qcached st k -> 0 < mx.
Proof.
  intros Hr Hc. destruct (Z.le_gt_cases mx 0) as [Hm|]; [|lia]. destruct (reach_off Hm Hr) as [H _]. destruct Hc. unfold entry. by rewrite H.
Qed.
(** A cached entry has a life in the history. *)
Lemma cached_life st h k a : qreach st h -> entry st k = Some a ->
  exists fl c u l x, st = QuotaAgg (Some c) u fl /\ Good c u l /\ x ∈ l /\ c_key x = k /\ c_addr x = a /\ lives md5 clk cf h x /\ runs_well debug md5 clk cf fl (l_tick c) (p_next u) l h.
Proof.
  intros Hr He. assert (0 < mx) as Hm by (eapply cached_on; [exact Hr|unfold qcached; by rewrite He]).
  destruct (reach_run Hclk Hm Hr) as (fl & tk & nx & l & R). destruct (qrun_good R) as (c & u & -> & G & <- & <-). pose proof (run_well Hclk R) as W.
  apply (entry_cell fl k a G) in He as (x & Hx & <- & <-). exists fl, c, u, l, x. split_and!; try done. pose proof (rw_lives W) as F. rewrite Forall_forall in F. auto.
Qed.

Lemma later_in {A} (l1 : list A) a (l2 m1 : list A) b m2 : l1 ++ a :: l2 = m1 ++ b :: m2 -> a ∉ m2 -> b ∈ a :: l2.
Proof.
  revert m1. induction l1 as [|z l1 IH]; intros m1 E Ha.
  - destruct m1 as [|z m1]; cbn in E; injection E as -> ->; [constructor|]. set_solver.
  - destruct m1 as [|z' m1]; cbn in E; injection E as -> E; [|by eapply IH]. destruct Ha. rewrite <- E. set_solver.
Qed.
Lemma last_same {A} (P : A -> Prop) (l1 : list A) a (l2 m1 : list A) b m2 : l1 ++ a :: l2 = m1 ++ b :: m2 -> P a -> P b -> Forall (fun z => ~ P z) l2 -> Forall (fun z => ~ P z) m2 -> a = b /\ l2 = m2.
Proof.
  revert m1. induction l1 as [|z l1 IH]; intros m1 E Ha Hb F1 F2.
  - destruct m1 as [|z m1]; cbn in E; injection E as -> ->; [done|]. rewrite Forall_app, Forall_cons in F1. tauto.
  - destruct m1 as [|z' m1]; cbn in E; injection E as -> E; [|by eapply IH]. rewrite <- E, Forall_app, Forall_cons in F2. tauto.
Qed.
(** The part of a list after a point at which [P] stops being false and stays true. *)
Lemma tail_true {A} (P : A -> Prop) (h0 T l1 : list A) a (l2 : list A) : h0 ++ T = l1 ++ a :: l2 -> Forall (fun z => ~ P z) h0 -> P a -> exists T1, T = T1 ++ a :: l2.
Proof.
  revert l1. induction h0 as [|z h0 IH]; intros l1 E F Ha; [by exists l1|]. inversion F; subst. destruct l1 as [|z' l1]; injection E as -> E; [done|]. by eapply IH.
Qed.

(** The address of an entry identifies it: it is the same object exactly as long as the entry stays in the cache. *)
Lemma entry_identity st h1 ev1 h2 k : qreach st (h1 ++ ev1 :: h2) -> stays (qv_after ev1) st k -> Forall (fun ev => entry (qv_after ev) k = entry st k) h2.
Proof.
  intros Hr [Hc He]. unfold qcached in Hc. destruct (entry st k) as [a|] eqn:Ea; [|congruence].
  destruct (cached_life _ Hr Ea) as (fl & c & u & l & x & -> & G & Hx & Hk & Ha & [(h0 & ev0 & T & E & _ & _ & _ & L4 & L5 & _) _] & _). rewrite Hk, Ha in *.
  assert (E' : h0 ++ (ev0 :: T) = h1 ++ ev1 :: h2) by done.
  destruct (@tail_true _ (fun ev => entry (qv_after ev) k = Some a) _ _ _ _ _ E' L4 (eq_sym He)) as [T1 ET]. rewrite ET, Forall_app, Forall_cons in L5. apply L5.
Qed.

(** ** What a call does to the entry of a signature *)
Lemma same_cell st h call res st' k a : qreach st h -> returns call st (st', res) -> entry st' k = Some a ->
  Exists (fun ev => entry (qv_after ev) k = Some a) h ->
  exists fl l x x' s c u, st = QuotaAgg (Some c) u fl /\ Good c u l /\ x ∈ l /\ c_key x = k /\ c_addr x = a /\ lives md5 clk cf h x /\ Forall (owned h) l /\
    cellmove debug ord md5 clk cf (QuotaEvent call res (qreadings st) (qreadings st') st') l x x' s.
Proof.
  intros Hr Hs He Hb. assert (0 < mx) as Hm.
  { apply (cached_on (st:=st') (h:=h ++ [QuotaEvent call res (qreadings st) (qreadings st') st']) (k:=k)); [by econstructor|]. unfold qcached. by rewrite He. }
  destruct (one_call Hm Hr Hs) as (fl & c & u & l & fl' & c' & u' & l' & -> & -> & G & G' & W & M).
  apply (entry_cell fl' k a G') in He as (x' & Hx' & <- & <-).
  destruct (@cell_moved debug ord md5 clk cf idle Hclk call fl _ _ l res fl' _ _ l' (QuotaAgg (Some c') u' fl') x' M (good_keys G) Hx') as [[(q & t & Hc & Hw & Hk & Ha & _) _]|(x & s & Hx & Mv)].
  - exfalso. apply Exists_exists in Hb as (ev & Hev & E). pose proof (rw_old W) as O. rewrite Forall_forall in O. apply (O ev Hev) in E. lia.
  - assert (c_addr x' = c_addr x /\ c_key x' = c_key x) as [-> ->] by (split; apply Mv). pose proof (rw_lives W) as Lv. rewrite Forall_forall in Lv.
    exists fl, l, x, x', s, c, u. split_and!; try done; [by apply Lv|apply W].
Qed.

(** ** Refreshes *)
Lemma refresh_answered st h1 ev1 h2 call st' res k : qreach st (h1 ++ ev1 :: h2) -> told_apart md5 (h1 ++ ev1 :: h2) -> returns call st (st', res) ->
  hands_out md5 k ev1 -> Exists (fun q => sg q = k) (qres_flushed res) -> stays (qv_after ev1) st' k -> Exists (responds md5 k) (ev1 :: h2).
Proof.
  intros Hr A Hs H1 H2 [Hc He]. unfold qcached in Hc. destruct (entry (qv_after ev1) k) as [a|] eqn:Ea; [|congruence].
  destruct (same_cell k Hr Hs He) as (fl & l & x & x' & s & c & u & -> & G & Hx & Hk & Ha & [(h0 & ev0 & T & E & _ & _ & _ & _ & _ & _ & L7) _] & O & Mv).
  { rewrite Exists_app, Exists_cons. auto. }
  destruct Mv as (_ & _ & _ & M4 & _ & _ & _ & _ & _ & M10). apply Exists_exists in H2 as (it & Hit & Hki).
  rewrite Hk in *. destruct (M10 _ A O it Hit Hki) as [-> _]. destruct M4 as [M4 _]. destruct (proj1 (L7 A) M4) as (T1 & ev & T2 & -> & R & F).
  apply Exists_exists. exists ev. split; [|done]. apply (@later_in _ h1 ev1 h2 (h0 ++ ev0 :: T1) ev T2); [by rewrite E, <- app_assoc|].
  intros Hin. rewrite Forall_forall in F. by apply (F _ Hin).
Qed.
Notation solicited := (solicited md5).
Lemma reach_prefix st h1 h2 : qreach st (h1 ++ h2) -> exists st1, qreach st1 h1.
Proof.
  revert st. induction h2 as [|ev h2 IH] using rev_ind; intros st Hr; [exists st; by rewrite app_nil_r in Hr|].
  rewrite app_assoc in Hr. destruct (reach_snoc _ _ Hr) as (st0 & Hr0 & _). by eapply IH.
Qed.
Lemma solicited_app k h h' : solicited k (h ++ h') -> solicited k h.
Proof. intros S h1 ev h2 -> R. apply (S h1 ev (h2 ++ h')); [|done]. by rewrite <- app_assoc. Qed.
(** With only solicited answers, no call both answers a key and hands out its refresh. *)
Lemma not_both st h k : qreach st h -> told_apart md5 h -> solicited k h -> Forall (fun ev => ~ (responds md5 k ev /\ hands_out md5 k ev)) h.
Proof.
  revert st. induction h as [|ev h IH] using rev_ind; intros st Hr A S; [constructor|].
  destruct (reach_snoc _ _ Hr) as (st0 & Hr0 & Hs & Ev). assert (told_apart md5 h) as A0 by (by eapply told_apart_app). pose proof (@solicited_app k _ _ S) as S0. specialize (IH st0 Hr0 A0 S0).
  apply Forall_app. split; [done|]. constructor; [|constructor]. intros [R Ho]. destruct (Z.le_gt_cases mx 0) as [Hm|Hm].
  { destruct (reach_off Hm Hr) as [_ F]. rewrite Forall_app, Forall_cons in F. destruct F as (_ & (_ & F & _) & _). unfold hands_out in Ho. rewrite F in Ho. by apply Exists_nil in Ho. }
  assert (0 < mx) as Hm' by lia. destruct (one_call Hm' Hr0 Hs) as (fl & c & u & l & fl' & c' & u' & l' & -> & -> & G & G' & W & M).
  assert (exists x', x' ∈ l' /\ c_key x' = k) as (x' & Hx' & Hk').
  { destruct R as (q & r & Hc & Hq). rewrite Hc in M. apply Exists_exists in Ho as (it & Hit & Hki). inversion M; subst.
    - exists (Cell (c_addr x) (c_time x) (set_quota_response r (set_qe_in_flight false (c_elem x)))). split; [set_solver|].
      unfold c_key. cbn [c_elem]. rewrite answered_sig. fold (c_key x). congruence.
    - exfalso. match goal with H : _ = qv_result ev |- _ => rewrite <- H in Hit end. cbn in Hit.
      match goal with H : expires _ _ _ _ _ _ _ _ _ _ _ |- _ => destruct H as (P & _) end. match goal with H : _ ∉ _ <$> _ |- _ => apply H end.
      destruct (passes_item P Hit) as (p & i & j & n & Hp & E & -> & Hin). pose proof (rw_owned W) as O. rewrite Forall_forall in O.
      rewrite (item_sig ord cf Hclk A0 (O _ Hin)) in Hki. rewrite <- Hki. destruct P as (_ & P2 & _). rewrite P2. apply elem_of_list_fmap.
      exists (Cell (c_addr p.1) (clk j) (refreshed (clk n) (c_elem p.1))). split; [done|]. apply elem_of_list_omap. exists p. split; [done|]. unfold after. by rewrite E. }
  destruct (@cell_moved debug ord md5 clk cf idle Hclk _ fl _ _ l _ fl' _ _ l' (QuotaAgg (Some c') u' fl') x' M (good_keys G) Hx') as [[(q & t & Hc & _) _]|(x & s & Hx & Mv)].
  { destruct R as (q' & r & Hc' & _). cbn in Hc. congruence. }
  destruct Mv as (_ & M2 & _ & M4 & _ & _ & _ & _ & _ & M10). apply Exists_exists in Ho as (it & Hit & Hki).
  assert (c_key x = k) as Ek by congruence. destruct (M10 _ A0 (rw_owned W) it Hit ltac:(congruence)) as [-> _]. destruct M4 as [M4 _].
  pose proof (rw_lives W) as Lv. rewrite Forall_forall in Lv. destruct (Lv x Hx) as [(h0 & ev0 & T & E & _ & _ & _ & _ & _ & _ & L7) _].
  destruct (proj1 (L7 A0) M4) as (T1 & v & T2 & -> & Rv & F). rewrite Ek in *.
  destruct (S h ev [] eq_refl R) as (h3 & v0 & h4 & E2 & Ho2 & F2).
  assert (v ∈ v0 :: h4) as Hv. { apply (@later_in _ h3 v0 h4 (h0 ++ ev0 :: T1) v T2); [rewrite <- E2, E, <- app_assoc; done|]. intros Hin. rewrite Forall_forall in F. by apply (F _ Hin). }
  apply elem_of_cons in Hv as [->|Hv]; [|rewrite Forall_forall in F2; by apply (F2 _ Hv)].
  rewrite Forall_forall in IH. apply (IH v0); [rewrite E2; set_solver|done].
Qed.
Lemma refresh_answered_strict st h1 ev1 h2 call st' res k : qreach st (h1 ++ ev1 :: h2) -> told_apart md5 (h1 ++ ev1 :: h2) -> solicited k (h1 ++ ev1 :: h2) -> returns call st (st', res) ->
  hands_out md5 k ev1 -> Exists (fun q => sg q = k) (qres_flushed res) -> stays (qv_after ev1) st' k -> Exists (responds md5 k) h2.
Proof.
  intros Hr A S Hs H1 H2 H3. pose proof (not_both Hr A S) as N. pose proof (@refresh_answered st h1 ev1 h2 call st' res k Hr A Hs H1 H2 H3) as E.
  apply Exists_cons in E as [E|E]; [|done]. rewrite Forall_app, Forall_cons in N. destruct N as (_ & N & _). destruct N. done.
Qed.

(** ** Denials *)
Lemma answers_cached st h1 ev1 h2 q st' res r : qreach st (h1 ++ ev1 :: h2) -> responds_with md5 (sg q) r ev1 -> Forall (fun ev => ~ responds md5 (sg q) ev) h2 ->
  returns (QQuota q) st (st', res) -> well_addressed cf q -> stays (qv_after ev1) st' (sg q) -> qres_status res = SOk /\ qres_response res = Some r.
Proof.
  intros Hr H1 H2 Hs Hw [Hc He]. unfold qcached in Hc. destruct (entry (qv_after ev1) (sg q)) as [a|] eqn:Ea; [|congruence].
  destruct (same_cell _ Hr Hs He) as (fl & l & x & x' & s & c & u & -> & G & Hx & Hk & Ha & [(h0 & ev0 & T & E & L1 & _ & _ & L4 & L5 & L6 & _) _] & O & Mv).
  { rewrite Exists_app, Exists_cons. auto. }
  rewrite Hk, Ha in *. destruct Mv as (_ & _ & _ & _ & _ & M6 & _ & M8 & _).
  assert (qasks md5 cf (c_key x) (QuotaEvent (QQuota q) res (qreadings (QuotaAgg (Some c) u fl)) (qreadings st') st')) as Hq by (exists q; split_and!; done).
  assert (qe_response (c_elem x') = qe_response (c_elem x)) as Er. { destruct M6 as [(? & ? & _)|[_ M6]]; done. }
  specialize (M8 Hq). cbn in M8. rewrite M8, Er. split.
  - destruct (Z.le_gt_cases mx 0) as [Hm|Hm]; [by destruct (reach_off Hm Hr)|]. assert (0 < mx) as Hm' by lia.
    destruct (one_call Hm' Hr Hs) as (? & ? & ? & ? & ? & ? & ? & ? & _ & _ & _ & _ & _ & M). inversion M; subst; done.
  - assert (E' : h0 ++ (ev0 :: T) = h1 ++ ev1 :: h2) by done.
    destruct (@tail_true _ (fun ev => entry (qv_after ev) (sg q) = Some a) _ _ _ _ _ E' L4 Ea) as [T1 ET].
    assert (responds md5 (sg q) ev1) as R1 by (destruct H1 as (q1 & ? & ?); by exists q1, r).
    destruct T1 as [|z T1]; injection ET as <- ET.
    { destruct L1 as (? & ? & _), R1 as (? & ? & ? & _). congruence. }
    destruct L6 as [[_ L6]|(T1' & v & T2' & -> & Rv & F)].
    { rewrite ET, Forall_app, Forall_cons in L6. tauto. }
    assert (responds md5 (sg q) v) as Rv' by (destruct Rv as (q1 & ? & ?); by exists q1, (qe_response (c_elem x))).
    destruct (@last_same _ (responds md5 (sg q)) _ _ _ _ _ _ ET Rv' R1 F H2) as [-> _]. destruct H1 as (q1 & H1 & _), Rv as (q2 & Rv & _). congruence.
Qed.
Lemma denied_mode st h1 ev1 h2 call st' res k r it : qreach st (h1 ++ ev1 :: h2) -> told_apart md5 (h1 ++ ev1 :: h2) -> responds_with md5 k r ev1 -> qs_errors r <> [] ->
  Forall (fun ev => ~ responds md5 k ev) h2 -> returns call st (st', res) -> stays (qv_after ev1) st' k ->
  it ∈ qres_flushed res -> sg it = k -> (exists q, call = QQuota q /\ sg q = k) /\ qo_mode (qop_get (qr_operation it)) = QUOTA_NORMAL.
Proof.
  intros Hr A H1 Hd H2 Hs [Hc He] Hit Hki. unfold qcached in Hc. destruct (entry (qv_after ev1) k) as [a|] eqn:Ea; [|congruence].
  destruct (same_cell _ Hr Hs He) as (fl & l & x & x' & s & c & u & -> & G & Hx & Hk & Ha & [(h0 & ev0 & T & E & L1 & _ & _ & L4 & L5 & L6 & _) Bare] & O & Mv).
  { rewrite Exists_app, Exists_cons. auto. }
  rewrite Hk, Ha in *. destruct Mv as (_ & _ & _ & _ & _ & _ & _ & _ & _ & M10). rewrite Hk in M10.
  destruct (M10 _ A O it Hit Hki) as [_ M]. destruct M as [(q & Hq & _ & Hq2) M]; [done| |by split; [exists q|]].
  assert (E' : h0 ++ (ev0 :: T) = h1 ++ ev1 :: h2) by done.
  destruct (@tail_true _ (fun ev => entry (qv_after ev) k = Some a) _ _ _ _ _ E' L4 Ea) as [T1 ET].
  assert (responds md5 k ev1) as R1 by (destruct H1 as (q1 & ? & ?); by exists q1, r).
  destruct T1 as [|z T1]; injection ET as <- ET.
  { destruct L1 as (? & ? & _), R1 as (? & ? & ? & _). congruence. }
  destruct L6 as [[_ L6]|(T1' & v & T2' & -> & Rv & F)].
  { rewrite ET, Forall_app, Forall_cons in L6. tauto. }
  assert (responds md5 k v) as Rv' by (destruct Rv as (q1 & ? & ?); by exists q1, (qe_response (c_elem x))).
  destruct (@last_same _ (responds md5 k) _ _ _ _ _ _ ET Rv' R1 F H2) as [-> _]. destruct H1 as (q1 & H1 & _), Rv as (q2 & Rv & _).
  assert (qe_response (c_elem x) = r) as Er by congruence. unfold is_positive. rewrite Er. by destruct (qs_errors r).
Qed.

(** ** First requests *)
Lemma pass_flight fl lo hi l l1 its T h : passes ord clk cf fl lo hi l l1 its T -> told_apart md5 h -> Forall (owned h) l -> NoDup (c_key <$> l) ->
  NoDup (sg <$> its) /\ forall it, it ∈ its -> (exists x, x ∈ l /\ c_key x = sg it /\ qe_in_flight (c_elem x) = false) /\ exists x1, x1 ∈ l1 /\ c_key x1 = sg it /\ qe_in_flight (c_elem x1) = true.
Proof.
  intros P A O N. split.
  - destruct P as (P1 & _ & -> & _). rewrite <- P1 in O, N. clear P1. induction T as [|p T IH]; [constructor|]. cbn in O, N |- *. apply Forall_cons in O as [O1 O2].
    apply NoDup_cons in N as [N1 N2]. specialize (IH O2 N2). unfold sent at 1. destruct p.2 as [|i j|i j k|i] eqn:E; try done. cbn. apply NoDup_cons. split; [|done].
    rewrite (item_sig ord cf Hclk A O1). intros Hin. apply N1. apply elem_of_list_fmap in Hin as (it & Ei & Hit). apply elem_of_list_omap in Hit as (p' & Hp' & Hs).
    unfold sent in Hs. destruct p'.2; try done. injection Hs as <-. rewrite Forall_forall in O2. assert (p'.1 ∈ T.*1) as Hp1 by (by apply elem_of_list_fmap_1).
    rewrite (item_sig ord cf Hclk A (O2 _ Hp1)) in Ei. rewrite Ei. by apply elem_of_list_fmap_1.
  - intros it Hit. destruct (passes_item P Hit) as (p & i & j & k & Hp & E & -> & Hin). rewrite Forall_forall in O. rewrite (item_sig ord cf Hclk A (O _ Hin)). split.
    + exists p.1. split_and!; try done. pose proof (passes_ok P Hp) as Ok. unfold fate_ok in Ok. rewrite E in Ok. destruct Ok as (_ & Hpe & _). by apply pending_open in Hpe as [? _].
    + exists (Cell (c_addr p.1) (clk j) (refreshed (clk k) (c_elem p.1))). split_and!; try done. destruct P as (_ & P2 & _). rewrite P2. apply elem_of_list_omap. exists p. split; [done|].
      unfold after. by rewrite E.
Qed.
Lemma owned_pass fl lo hi l l1 its T h : passes ord clk cf fl lo hi l l1 its T -> Forall (owned h) l -> Forall (owned h) l1.
Proof.
  intros P O. apply Forall_forall. intros z Hz. destruct (passes_from P Hz) as (p & _ & Ha & Hinz). eapply owned_after; [exact Ha|]. rewrite Forall_forall in O. auto.
Qed.
Lemma first_quota st h q st' res : 0 < mx -> qreach st h -> returns (QQuota q) st (st', res) -> well_addressed cf q ->
  qres_status res = SOk /\ qcached st' (sg q) /\
  (~ stays st st' (sg q) -> qres_response res = Some empty_quota_response /\
     exists others, qres_flushed res = others ++ [q] /\ (told_apart md5 h -> Forall (fun it => sg it <> sg q) others)).
Proof.
  intros Hm Hr Hs Hw. destruct (one_call Hm Hr Hs) as (fl & c & u & l & fl' & c' & u' & l' & -> & -> & G & G' & W & M). inversion M; subst; try done; (match goal with H : expires _ _ _ _ _ _ _ _ _ _ _ |- _ => destruct H as (P & _) end).
  - split; [done|]. assert (entry (QuotaAgg (Some c') u' fl') (sg q) = Some (c_addr x)) as E.
    { apply (entry_cell fl' _ _ G'). exists (Cell (c_addr x) (c_time x) e). split_and!; [set_solver| |done].
      unfold c_key. cbn [c_elem]. match goal with H : QuotaCall.counted _ _ _ = _ |- _ => by rewrite (counted_sig _ _ _ H), looked_sig end. }
    split; [unfold qcached; by rewrite E|]. intros NS. destruct NS.
    destruct (passes_from P (x:=x) ltac:(set_solver)) as (p & _ & Ha & Hin).
    assert (entry (QuotaAgg (Some c) u fl') (sg q) = Some (c_addr x)) as E2.
    { apply (entry_cell fl' _ _ G). exists p.1. rewrite <- (after_addr clk p Ha), <- (after_key clk p Ha). done. }
    split; [unfold qcached; by rewrite E2|congruence].
  - split; [done|]. assert (Cell (p_next u) (clk (S tk1)) (fresh_elem md5 q (clk tk1)) ∈ l') as Hin by (match goal with H : l' ≡ₚ _ |- _ => rewrite H end; constructor).
    assert (entry (QuotaAgg (Some c') u' fl') (sg q) = Some (p_next u)) as E by (apply (entry_cell fl' _ _ G'); eexists; split_and!; [exact Hin|done..]).
    split; [unfold qcached; by rewrite E|]. intros _. split; [done|]. exists (its ++ its2). split; [done|]. intros A. match goal with H : passes _ _ _ _ (S (S _)) _ _ _ _ _ |- _ => pose proof H as P2 end.
    pose proof (passes_keys P (good_keys G)) as N1. pose proof (owned_pass P (rw_owned W)) as O1. apply Forall_forall. intros it Hit Hk. apply elem_of_app in Hit as [Hit|Hit].
    + destruct (pass_flight P A (rw_owned W) (good_keys G)) as [_ F]. destruct (F it Hit) as (_ & x1 & Hx & Hkx & _). match goal with H : _ ∉ _ |- _ => apply H end. rewrite <- Hk, <- Hkx. by apply elem_of_list_fmap_1.
    + destruct (pass_flight P2 A O1 N1) as [_ F]. destruct (F it Hit) as ((x1 & Hx & Hkx & _) & _). match goal with H : _ ∉ _ |- _ => apply H end. rewrite <- Hk, <- Hkx. by apply elem_of_list_fmap_1.
Qed.
(** No call hands out two requests of the same signature. *)
Lemma handed_out_once st h call st' res : qreach st h -> told_apart md5 h -> returns call st (st', res) -> NoDup (sg <$> qres_flushed res).
Proof.
  intros Hr A Hs. destruct (Z.le_gt_cases mx 0) as [Hm|Hm].
  { assert (qreach st' (h ++ [QuotaEvent call res (qreadings st) (qreadings st') st'])) as Hr' by (by econstructor). destruct (reach_off Hm Hr') as [_ F].
    rewrite Forall_app, Forall_cons in F. destruct F as (_ & (_ & F & _) & _). cbn in F. rewrite F. constructor. }
  assert (0 < mx) as Hm' by lia. destruct (one_call Hm' Hr Hs) as (fl & c & u & l & fl' & c' & u' & l' & -> & -> & G & G' & W & M).
  pose proof (good_keys G) as N. pose proof (rw_owned W) as O. inversion M; subst; cbn [qres_flushed]; try (by constructor); parts.
  - destruct (pass_flight P A O N) as [N1 F]. pose proof (passes_keys P N) as NK. pose proof (owned_pass P O) as O1.
    destruct (looked_cases ord clk cf (c_elem x) tk1 its) as [[Em Hf]|[[Em Hf]|(i & it & Em & Hi & Hf & Hit)]]; rewrite Em; cbn [snd]; [done|done|].
    rewrite fmap_app. apply NoDup_app. split; [done|]. split; [|apply NoDup_singleton]. intros k Hk Hk2. apply elem_of_list_singleton in Hk2.
    apply elem_of_list_fmap in Hk as (it' & -> & Hit'). destruct (F it' Hit') as (_ & x1 & Hx & Hkx & Hfx). rewrite Hk2, Hit in Hkx.
    rewrite Forall_app, Forall_cons in O1. destruct O1 as (_ & O1 & _). rewrite (looked_item_sig (x:=x) ord cf Hclk eq_refl A O1) in Hkx.
    assert (x1 = x) as ->. { eapply (nodup_fst c_key); [exact NK|done|set_solver|done]. } congruence.
  - destruct (pass_flight P A O N) as [N1 F]. pose proof (passes_keys P N) as NK. pose proof (owned_pass P O) as O1.
    destruct (pass_flight P2 A O1 NK) as [N2 F2]. rewrite !fmap_app. apply NoDup_app. split; [apply NoDup_app; split; [done|]; split; [|done]|split; [|apply NoDup_singleton]].
    + intros k Hk Hk2. apply elem_of_list_fmap in Hk as (it & -> & Hit). apply elem_of_list_fmap in Hk2 as (it2 & Ek & Hit2).
      destruct (F it Hit) as (_ & x1 & Hx & Hkx & Hfx). destruct (F2 it2 Hit2) as ((x2 & Hx2 & Hkx2 & Hfx2) & _).
      assert (x1 = x2) as -> by (eapply (nodup_fst c_key); [exact NK|done|done|congruence]). congruence.
    + intros k Hk Hk2. apply elem_of_list_singleton in Hk2. subst k. apply elem_of_app in Hk as [Hk|Hk]; apply elem_of_list_fmap in Hk as (it & Ek & Hit).
      * destruct (F it Hit) as (_ & x1 & Hx & Hkx & Hfx). destruct NI. rewrite Ek, <- Hkx. by apply elem_of_list_fmap_1.
      * destruct (F2 it Hit) as ((x1 & Hx & Hkx & Hfx) & _). destruct NI. rewrite Ek, <- Hkx. by apply elem_of_list_fmap_1.
  - by destruct (pass_flight P A O N).
  - by destruct (pass_flight P A O N).
  - by destruct (pass_flight P A O N).
Qed.

(** ** Stale entries *)
Lemma cell_data c u fl l x : Good c u l -> x ∈ l -> inserted_at (QuotaAgg (Some c) u fl) (c_key x) = Some (c_time x) /\ recorded (QuotaAgg (Some c) u fl) (c_key x) = Some (c_elem x).
Proof.
  intros G Hin. assert (entry (QuotaAgg (Some c) u fl) (c_key x) = Some (c_addr x)) as E by (apply (entry_cell fl _ _ G); by exists x). unfold recorded. rewrite E. cbn [qg_pool].
  destruct G as (L & R & _). pose proof (rep_shape R) as S. unfold inserted_at. cbn [qg_cache].
  apply elem_of_list_lookup in Hin as [i Hi]. pose proof (rep_same R) as F. eapply Forall2_lookup_r in F as ([id e] & Hx & Hs); [|exact Hi].
  apply elem_of_list_lookup_2 in Hx. destruct Hs as (H1 & H2 & H3 & H4). cbn in *. rewrite <- H1, (shape_find S Hx).
  assert (l_heap c !! id = Some e) as -> by (apply (sh_heap S); rewrite app_nil_r; done). cbn. by rewrite H3.
Qed.
Lemma inserted_cell c u fl l k t : Good c u l -> inserted_at (QuotaAgg (Some c) u fl) k = Some t -> exists x, x ∈ l /\ c_key x = k /\ c_time x = t.
Proof.
  intros G H. pose proof G as (L & R & _). pose proof (rep_shape R) as S. unfold inserted_at in H. cbn [qg_cache] in H. destruct (l_table c !! k) as [id|] eqn:E; [|done].
  destruct (l_heap c !! id) as [v|] eqn:Ev; [|done]. assert (entry (QuotaAgg (Some c) u fl) k = Some (e_value v)) as En by (unfold entry; cbn; by rewrite E, Ev).
  apply (entry_cell fl _ _ G) in En as (x & Hx & <- & _). destruct (cell_data fl G Hx) as [D _]. unfold inserted_at in D. cbn in D. rewrite E, Ev in D. cbn in *. exists x. split_and!; congruence.
Qed.
Lemma flush_drops st h st' res n k t t' : qreach st h -> returns QFlushC st (st', res) -> cycles_of_ms (qp_refresh_ms (qf_options cf)) = Ok (Some n) ->
  inserted_at st k = Some t -> t < clk (qreadings st) - n -> last_refresh st k = Some t' -> expiration_interval_in_cycle cf <= clk (qreadings st) - t' -> entry st' k = None.
Proof.
  intros Hr Hs Hn Hi Ht Hl He. destruct (Z.le_gt_cases mx 0) as [Hm|Hm].
  { destruct (reach_off Hm Hr) as [E _]. unfold inserted_at in Hi. by rewrite E in Hi. }
  assert (0 < mx) as Hm' by lia. destruct (one_call Hm' Hr Hs) as (fl & c & u & l & fl' & c' & u' & l' & -> & -> & G & G' & W & M).
  destruct (inserted_cell _ _ G Hi) as (x & Hx & Hk & Hxt). destruct (cell_data fl G Hx) as [_ Dr]. rewrite Hk in Dr. unfold last_refresh in Hl. rewrite Dr in Hl. injection Hl as Hl.
  cbn [qreadings qg_cache] in *. inversion M; subst; parts. destruct (entry (QuotaAgg (Some c') u' fl') (c_key x)) as [a|] eqn:Ea; [|done]. exfalso.
  apply (entry_cell fl' _ _ G') in Ea as (x1 & Hx1 & Hk1 & _). destruct (passes_from P Hx1) as (p & Hp & Ha & Hin).
  assert (p.1 = x) as Ep. { eapply (nodup_fst c_key); [exact (good_keys G)|done|done|]. rewrite <- Hk1. symmetry. by apply (after_key clk). }
  pose proof (passes_ok P Hp) as Ok. rewrite Forall_forall in F1. specialize (F1 p Hp). cbn in F1. unfold fate_ok, after in *.
  pose proof (cycles_nonneg _ _ Hn) as H0. assert (idle = n) as Ei by (unfold idle_of; by rewrite Hn).
  assert (forall i, (l_tick c <= i)%nat -> doomed clk cf fl' i (c_elem p.1) = true) as Dm.
  { intros i Hli. unfold doomed. destruct fl'; [done|]. apply Z.leb_le. rewrite Ep. pose proof (Hmono Hli). lia. }
  destruct p.2 as [|i j|i j m|i]; [rewrite Ep in F1; lia|destruct Ok as (D & _ & ? & _)|destruct Ok as (D & _ & ? & _)|done]; rewrite Dm in D by lia; done.
Qed.
Lemma leaves_stale st h call st' res k a : qreach st h -> Forall (fun ev => qv_call ev <> QFlushAllC) h -> call <> QFlushAllC -> returns call st (st', res) ->
  entry st k = Some a -> entry st' k <> Some a ->
  exists t i, last_refresh st k = Some t /\ (qreadings st <= i < qreadings st')%nat /\ expiration_interval_in_cycle cf <= clk i - t.
Proof.
  intros Hr Hf Hc Hs He He'. assert (0 < mx) as Hm by (eapply cached_on; [exact Hr|unfold qcached; by rewrite He]).
  destruct (one_call Hm Hr Hs) as (fl & c & u & l & fl' & c' & u' & l' & -> & -> & G & G' & W & M).
  assert (fl = false) as ->. { destruct fl; [|done]. pose proof (rw_flag W eq_refl) as E. apply Exists_exists in E as (ev & Hev & E). rewrite Forall_forall in Hf. by destruct (Hf ev Hev). }
  apply (entry_cell false _ _ G) in He as (x & Hx & <- & <-). destruct (cell_data false G Hx) as [_ Dr]. exists (qe_last (c_elem x)). unfold last_refresh. rewrite Dr. cbn [qreadings qg_cache].
  assert (forall x', x' ∈ l' -> c_key x' = c_key x -> c_addr x' = c_addr x -> False) as No.
  { intros x' H1 H2 H3. apply He'. apply (entry_cell fl' _ _ G'). by exists x'. } clear He'.
  assert (forall lo hi m m' its T y, passes ord clk cf false lo hi m m' its T -> y ∈ m -> (exists y', y' ∈ m' /\ c_key y' = c_key y /\ c_addr y' = c_addr y /\
      (qe_last (c_elem y') = qe_last (c_elem y) \/ exists j, (lo <= j)%nat /\ qe_last (c_elem y') = clk j)) \/
      exists i, (lo <= i < hi)%nat /\ expiration_interval_in_cycle cf <= clk i - qe_last (c_elem y)) as Pass.
  { intros lo hi m m' its T y P Hy. destruct (passes_to P Hy) as (p & Hp & <-). pose proof (passes_ok P Hp) as Ok. destruct P as (_ & P2 & _).
    assert (forall y', after clk p = Some y' -> y' ∈ m') as In by (intros y' Ha; rewrite P2; apply elem_of_list_omap; by exists p). unfold after, fate_ok in *.
    destruct p.2 as [|i j|i j n|i].
    - left. eexists. split; [by apply In|]. auto.
    - left. eexists. split; [by apply In|]. auto.
    - left. eexists. split; [by apply In|]. split_and!; try done. right. exists n. split; [lia|done].
    - right. exists i. destruct Ok as (D & ? & H). specialize (H eq_refl). split; [lia|]. unfold doomed in D. by apply Z.leb_le in D. }
  pose proof (rw_last W) as La. rewrite Forall_forall in La. destruct (La x Hx) as (i0 & Hi0 & El).
  inversion M; subst; try done; parts.
  - exfalso. by eapply No.
  - pose proof (looked_tick ord clk cf (c_elem x0) tk1 its) as Tk. destruct (Pass _ _ _ _ _ _ _ P Hx) as [(y & Hy & Ky & Ay & _)|(i & Hi & Hd)]; [|exists i; split_and!; try done; lia].
    exfalso. apply elem_mid in Hy as [->|Hy].
    + apply (No (Cell (c_addr x0) (c_time x0) e)); [set_solver| |done]. unfold c_key at 1. cbn [c_elem]. rewrite (counted_sig _ _ _ CE), looked_sig. done.
    + apply (No y); [|done..]. apply elem_mid. by right.
  - assert (l_tick c <= tk1)%nat by apply P. assert (S (S tk1) <= l_tick c')%nat by apply P2.
    destruct (Pass _ _ _ _ _ _ _ P Hx) as [(y & Hy & Ky & Ay & Ly)|(i & Hi & Hd)]; [|exists i; split_and!; try done; lia].
    destruct (Pass _ _ _ _ _ _ _ P2 Hy) as [(y2 & Hy2 & Ky2 & Ay2 & _)|(i & Hi & Hd)].
    + exfalso. apply (No y2); [|congruence..]. rewrite PE. by constructor.
    + exists i. split_and!; [done|lia|lia|]. destruct Ly as [Ly|(j & Hj & Ly)]; rewrite Ly in Hd; [done|]. rewrite El. pose proof (@Hmono i0 j). lia.
  - destruct (Pass _ _ _ _ _ _ _ P Hx) as [(y & Hy & Ky & Ay & _)|(i & Hi & Hd)]; [|exists i; split_and!; try done; lia].
    exfalso. apply elem_mid in Hy as [->|Hy].
    + apply (No (Cell (c_addr x0) (c_time x0) (set_quota_response r (set_qe_in_flight false (c_elem x0))))); [set_solver| |done]. unfold c_key at 1. cbn [c_elem]. rewrite answered_sig. done.
    + apply (No y); [|done..]. apply elem_mid. by right.
  - destruct (Pass _ _ _ _ _ _ _ P Hx) as [(y & Hy & Ky & Ay & _)|(i & Hi & Hd)]; [|exists i; split_and!; try done; lia]. exfalso. by apply (No y).
  - destruct (Pass _ _ _ _ _ _ _ P Hx) as [(y & Hy & Ky & Ay & _)|(i & Hi & Hd)]; [|exists i; split_and!; try done; lia]. exfalso. by apply (No y).
Qed.
Lemma refresh_recorded st h k : qreach st h -> told_apart md5 h -> qcached st k ->
  exists ev t, qmost_recent (hands_out md5 k) h ev /\ last_refresh st k = Some t /\ qduring clk t ev.
Proof.
  intros Hr A Hc. unfold qcached in Hc. destruct (entry st k) as [a|] eqn:Ea; [|done].
  destruct (cached_life _ Hr Ea) as (fl & c & u & l & x & -> & G & Hx & Hk & Ha & [(h0 & ev0 & T & E & _ & _ & _ & _ & _ & _ & L7) _] & _).
  destruct (proj2 (L7 A)) as (T1 & v & T2 & ET & Ho & Hd & F). destruct (cell_data fl G Hx) as [_ Dr]. rewrite Hk in *.
  exists v, (qe_last (c_elem x)). split; [|split; [unfold last_refresh; by rewrite Dr|done]]. exists (h0 ++ T1), T2. split; [|done]. by rewrite E, ET, <- app_assoc.
Qed.
End claims.
